From Coq Require Import String Reals Lra.
From Verif Require Import Prelude CRing CplxR StokesGridModel StokesGridSpec.
Close Scope R_scope.
Open Scope nat_scope.

Ltac rc2 := apply injective_projections; cbn; lra.
Ltac each_layout H := unfold layouts in H; repeat (destruct H as [<-|H]; [|]); [..|destruct H].
Ltac absent H := exfalso; destruct H as (p & Hp & Hc); cbn [In] in Hp;
  repeat (destruct Hp as [<-|Hp]; [apply Hc; reflexivity|]); destruct Hp.
Lemma to_correlations l s : In l layouts -> contains l s ->
  exists f, stokes2corr_impl (to_name l s) = Ok f /\ ncorr_out (to_name l s) = Ok (length l) /\
    ncorr_outpy (to_name l s) = Ok (length l) /\
    forall x out k, f x out k = if k <? length l then cadd (out k) (cmul (coeff (nth k l XX) s) x) else out k.
Proof.
  intros Hl Hc. each_layout Hl; destruct s; try solve [absent Hc];
  (eexists; split; [reflexivity|split; [reflexivity|split; [reflexivity|]]]; intros x out k;
   do 5 (try destruct k as [|k]); try reflexivity; rc2).
Qed.
Lemma from_correlations l s ncorr : In l layouts -> contains l s -> ~ (l = [RL; LR] /\ s = Q) -> (length l <= ncorr) ->
  exists f, corr2stokes (from_name s l) ncorr = Ok f /\
    forall v, f v = cmul half (csum (length l) (fun k => cmul (cconj (coeff (nth k l XX) s)) (v k))).
Proof.
  intros Hl Hc Hn Hcorr. each_layout Hl; destruct s; try solve [absent Hc]; try solve [exfalso; apply Hn; split; reflexivity];
  (unfold corr2stokes; cbn [from_name stokes_name layout_name map fold_right product_name append corr2stokes_impl];
   match goal with |- context [corr2stokes_impl ?e] => let r := eval vm_compute in e in change e with r end;
   cbn [corr2stokes_impl]; cbn [length] in Hcorr);
  (eexists; split; [unfold corr2stokes_impl; cbn [String.eqb Ascii.eqb Bool.eqb]; cbn [bind];
     match goal with |- (if ?a <? ?b then _ else _) = _ => destruct (Nat.ltb_spec a b); [lia|reflexivity] end|];
   intros v; rc2).
Qed.
Lemma roundtrip l s t f g ncorr : In l layouts -> contains l s -> contains l t -> ~ (l = [RL; LR] /\ s = Q) -> length l <= ncorr ->
  stokes2corr_impl (to_name l t) = Ok g -> corr2stokes (from_name s l) ncorr = Ok f ->
  forall x, (s = t -> f (g x (fun _ => c0)) = x) /\ (s <> t -> f (g x (fun _ => c0)) = c0).
Proof.
  intros Hl Hs Ht Hn Hcorr Eg Ef x. destruct (to_correlations l t Hl Ht) as (g' & Eg' & _ & _ & Fg). destruct (from_correlations l s ncorr Hl Hs Hn Hcorr) as (f' & Ef' & Ff).
  rewrite Eg in Eg'. injection Eg' as <-. rewrite Ef in Ef'. injection Ef' as <-. rewrite Ff.
  rewrite (csum_ext (K := RC) (length l) _ (fun k => cmul (cconj (coeff (nth k l XX) s)) (cmul (coeff (nth k l XX) t) x))).
  2: { intros k Hk. rewrite Fg. destruct (Nat.ltb_spec k (length l)); [|lia]. f_equal. rc2. }
  split; [intros <-|intros Hst].
  - clear g Eg Ht Fg f Ef Ff. each_layout Hl; destruct s; try solve [absent Hs]; rc2.
  - clear g Eg Fg f Ef Ff. each_layout Hl; destruct s; try solve [absent Hs]; destruct t; try solve [absent Ht]; try congruence; rc2.
Qed.
Ltac chain := repeat match goal with |- context [(?p =? ?s)%string] => destruct (String.eqb_spec p s) end.
Lemma unknown_to p : (forall l s, In l layouts -> contains l s -> p <> to_name l s) ->
  stokes2corr_impl p = Raise ValueError /\ ncorr_out p = Raise ValueError /\ ncorr_outpy p = Raise ValueError.
Proof.
  intros H.
  assert (A : forall l s q, In l layouts -> In q l -> coefficient q s <> (0, 0)%Z -> p <> to_name l s).
  { intros l s q Hl Hq Hc. apply H; [exact Hl|]. exists q. auto. }
  pose proof (A [XX; YY] I XX). pose proof (A [XX; XY; YX; YY] I XX). pose proof (A [RR'; LL] I LL). pose proof (A [RR'; RL; LR; LL] I LL).
  pose proof (A [XX; YY] Q XX). pose proof (A [XX; XY; YX; YY] Q XX). pose proof (A [RL; LR] Q LR). pose proof (A [RR'; RL; LR; LL] Q LR).
  pose proof (A [XY; YX] U XY). pose proof (A [XX; XY; YX; YY] U XY). pose proof (A [RL; LR] U LR). pose proof (A [RR'; RL; LR; LL] U LR).
  pose proof (A [XY; YX] V XY). pose proof (A [XX; XY; YX; YY] V XY). pose proof (A [RR'; LL] V LL). pose proof (A [RR'; RL; LR; LL] V LL).
  clear A H. unfold layouts in *. cbn [In] in *.
  repeat match goal with H : _ -> _ -> _ -> p <> to_name ?l ?s |- _ =>
    let r := eval vm_compute in (to_name l s) in change (to_name l s) with r in H;
    assert (p <> r) by (apply H; [auto 10|auto 10|discriminate]); clear H end.
  unfold stokes2corr_impl, ncorr_out, ncorr_outpy.
  repeat match goal with H : p <> ?r |- _ => apply String.eqb_neq in H; rewrite H; clear H end. auto.
Qed.
Lemma unknown_from p ncorr : (forall l s, In l layouts -> contains l s -> p <> from_name s l) -> corr2stokes p ncorr = Raise ValueError.
Proof.
  intros H.
  assert (A : forall l s q, In l layouts -> In q l -> coefficient q s <> (0, 0)%Z -> p <> from_name s l).
  { intros l s q Hl Hq Hc. apply H; [exact Hl|]. exists q. auto. }
  pose proof (A [XX; YY] I XX). pose proof (A [XX; XY; YX; YY] I XX). pose proof (A [RR'; LL] I LL). pose proof (A [RR'; RL; LR; LL] I LL).
  pose proof (A [XX; YY] Q XX). pose proof (A [XX; XY; YX; YY] Q XX). pose proof (A [RR'; RL; LR; LL] Q LR).
  pose proof (A [XY; YX] U XY). pose proof (A [XX; XY; YX; YY] U XY). pose proof (A [RL; LR] U LR). pose proof (A [RR'; RL; LR; LL] U LR).
  pose proof (A [XY; YX] V XY). pose proof (A [XX; XY; YX; YY] V XY). pose proof (A [RR'; LL] V LL). pose proof (A [RR'; RL; LR; LL] V LL).
  clear A H. unfold layouts in *. cbn [In] in *.
  repeat match goal with H : _ -> _ -> _ -> p <> from_name ?s ?l |- _ =>
    let r := eval vm_compute in (from_name s l) in change (from_name s l) with r in H;
    assert (p <> r) by (apply H; [auto 10|auto 10|discriminate]); clear H end.
  unfold corr2stokes, corr2stokes_impl.
  repeat match goal with H : p <> ?r |- _ => apply String.eqb_neq in H; rewrite H; clear H end. auto.
Qed.
Lemma short_view l s k ncorr : In l layouts -> ~ (l = [RL; LR] /\ s = Q) -> k < length l -> coefficient (nth k l XX) s <> (0, 0)%Z -> ncorr <= k ->
  corr2stokes (from_name s l) ncorr = Raise IndexError.
Proof.
  intros Hl Hn Hk Hc Hcorr. each_layout Hl; destruct s; try solve [exfalso; apply Hn; split; reflexivity]; cbn [length] in Hk;
  do 4 (try destruct k as [|k]); try lia; try solve [exfalso; apply Hc; reflexivity];
  (unfold corr2stokes; match goal with |- context [corr2stokes_impl ?e] => let r := eval vm_compute in e in change e with r end;
   unfold corr2stokes_impl; cbn [String.eqb Ascii.eqb Bool.eqb]; cbn [bind];
     match goal with |- (if ?a <? ?b then _ else _) = _ => destruct (Nat.ltb_spec a b); [reflexivity|lia] end).
Qed.
