From Coq Require Import Reals Lra String.
From Verif Require Import Prelude PreludeFacts CRing CplxR LoopFacts RimeModel RimeSpec DftModel DftSpec DftProofs SrcModel SrcSpec SrcProofs.
Open Scope R_scope.

Definition kindb (k : string) : bool := (String.eqb k "POINT" || String.eqb k "GAUSSIAN")%bool.
Lemma kindb_spec k : reflect (known_kind k) (kindb k).
Proof.
  unfold kindb, known_kind. destruct (String.eqb_spec k "POINT"); cbn; [constructor; auto|].
  destruct (String.eqb_spec k "GAUSSIAN"); constructor; tauto.
Qed.

(* one source *)
Definition src_body (nrow nchan : nat) (uvw lm : arr2 R) (kind : arr string) (gauss : arr2 R) (freq : arr R) (spec : arr2 R) (s : nat) (vis : arr3 RC) : arr3 RC :=
  for_ nrow (fun r vis => for_ nchan (fun f vis =>
    upd3 vis r f 0%nat (cadd (vis r f 0%nat) (component_vis lm uvw gauss kind freq spec r f s))) vis) vis.

Lemma impl_pure nsrc nrow nchan uvw lm kind gauss freq spec :
  (forall s, (s < nsrc)%nat -> known_kind (kind s)) ->
  wsclean_predict_impl nsrc nrow nchan uvw lm kind gauss freq spec =
  Ok (for_ nsrc (src_body nrow nchan uvw lm kind gauss freq spec) (fun _ _ _ => (c0 : RC))).
Proof.
  intros HK. unfold wsclean_predict_impl. cbv zeta. apply forM_pure. intros s vis Hs. unfold src_body.
  assert (PH : forall r f, two_pi_over_c * (uvw r 0%nat * lm s 0%nat + uvw r 1%nat * lm s 1%nat + uvw r 2%nat * (sqrt (1 - lm s 0%nat * lm s 0%nat - lm s 1%nat * lm s 1%nat) - 1)) * freq f = src_delay lm uvw freq s r f).
  { intros r f. unfold src_delay, delay, n1, two_pi_over_c, lightspeed, light. field. }
  destruct (String.eqb (kind s) "POINT") eqn:E1.
  - f_equal. apply for_ext. intros r v Hr. apply for_ext. intros f v1 Hf. rewrite PH. f_equal. f_equal.
    unfold component_vis, extent. rewrite E1. cbn. f_equal; ring.
  - destruct (String.eqb (kind s) "GAUSSIAN") eqn:E2.
    + f_equal. apply for_ext. intros r v Hr. apply for_ext. intros f v1 Hf. rewrite PH. f_equal. f_equal.
      unfold component_vis, extent. rewrite E1. rewrite <- gauss_value_envelope. unfold gauss_value. cbn.
      f_equal; ring.
    + destruct (HK s Hs) as [X|X]; rewrite X in *; discriminate.
Qed.
Lemma impl_raises nsrc nrow nchan uvw lm kind gauss freq spec s : (s < nsrc)%nat -> ~ known_kind (kind s) ->
  wsclean_predict_impl nsrc nrow nchan uvw lm kind gauss freq spec = Raise ValueError.
Proof.
  intros Hs HK. unfold wsclean_predict_impl. cbv zeta. apply (forM_raise nsrc _ ValueError s); auto.
  - intros vis. destruct (String.eqb_spec (kind s) "POINT"); [destruct HK; left; auto|].
    destruct (String.eqb_spec (kind s) "GAUSSIAN"); [destruct HK; right; auto|reflexivity].
  - intros i vis Hi. destruct (String.eqb (kind i) "POINT"); [left; eexists; reflexivity|].
    destruct (String.eqb (kind i) "GAUSSIAN"); [left; eexists; reflexivity|auto].
Qed.
Lemma src_body_value nrow nchan uvw lm kind gauss freq spec s vis r f : (r < nrow)%nat -> (f < nchan)%nat ->
  src_body nrow nchan uvw lm kind gauss freq spec s vis r f 0%nat =
  cadd (vis r f 0%nat) (component_vis lm uvw gauss kind freq spec r f s).
Proof.
  intros Hr Hf. unfold src_body.
  apply (for_at (fun x : arr3 RC => x r f 0%nat) (fun x => cadd x _) r); auto.
  { intros i x _ Ne. apply (for_frame (fun x : arr3 RC => x r f 0%nat)). intros j y _. apply upd3_neq. auto. }
  intros x. apply (for_at (fun x : arr3 RC => x r f 0%nat) (fun x => cadd x _) f); auto.
  { intros j y _ Ne. apply upd3_neq. auto. }
  intros y. apply upd3_eq.
Qed.
Theorem impl_value nsrc nrow nchan uvw lm kind gauss freq spec :
  (forall s, (s < nsrc)%nat -> known_kind (kind s)) ->
  exists V, wsclean_predict_impl nsrc nrow nchan uvw lm kind gauss freq spec = Ok V /\
    forall r f, (r < nrow)%nat -> (f < nchan)%nat ->
      V r f 0%nat = csum nsrc (component_vis lm uvw gauss kind freq spec r f).
Proof.
  intros HK. eexists. split; [apply impl_pure; auto|]. intros r f Hr Hf.
  rewrite (for_csum RC_laws (fun x : arr3 RC => x r f 0%nat) (component_vis lm uvw gauss kind freq spec r f)).
  - exact (Radd_0_l (law_ring RC RC_laws) _).
  - intros s x Hs. apply src_body_value; auto.
Qed.

(* ---------- the whole prediction ---------- *)
Lemma component_vis_ext lm uvw gauss kind freq fl fl' r f s : fl s f = fl' s f ->
  component_vis lm uvw gauss kind freq fl r f s = component_vis lm uvw gauss kind freq fl' r f s.
Proof. intros H. unfold component_vis. now rewrite H. Qed.

Theorem predict_value nsrc nrow nchan ncoeffs uvw lm kind flux coeffs lp rf gauss freq g : lp_fits nsrc lp ->
  (forall s, (s < nsrc)%nat -> acceptable ncoeffs kind flux coeffs lp s) ->
  exists V, wsclean_predict nsrc nrow nchan ncoeffs uvw lm kind flux coeffs lp rf gauss freq g = Ok V /\
    forall r f, (r < nrow)%nat -> (f < nchan)%nat ->
      V r f 0%nat = csum nsrc (component_vis lm uvw gauss kind freq (flux_of ncoeffs flux coeffs lp rf freq) r f).
Proof.
  intros HL HA. unfold wsclean_predict.
  destruct (spectra_value nsrc nchan ncoeffs flux coeffs lp rf freq g HL) as (sm & E & VS). { intros s Hs. apply HA. auto. }
  rewrite E. cbn [bind].
  destruct (impl_value nsrc nrow nchan uvw lm kind gauss freq sm) as (V & EV & VV). { intros s Hs. apply HA. auto. }
  exists V. split; auto. intros r f Hr Hf. rewrite VV by auto. apply csum_ext. intros s Hs. apply component_vis_ext. apply VS; auto.
Qed.
Theorem predict_raises nsrc nrow nchan ncoeffs uvw lm kind flux coeffs lp rf gauss freq g s : lp_fits nsrc lp ->
  (0 < nchan)%nat -> (s < nsrc)%nat -> ~ acceptable ncoeffs kind flux coeffs lp s ->
  wsclean_predict nsrc nrow nchan ncoeffs uvw lm kind flux coeffs lp rf gauss freq g = Raise ValueError.
Proof.
  intros HL Hn Hs HA. unfold wsclean_predict.
  destruct (Classical_Prop.classic (forall i, (i < nsrc)%nat -> accepted ncoeffs (log_polynomial lp i) (flux i) (coeffs i))) as [G|G].
  - destruct (spectra_value nsrc nchan ncoeffs flux coeffs lp rf freq g HL G) as (sm & E & _). rewrite E. cbn [bind].
    apply (impl_raises _ _ _ _ _ _ _ _ _ s); auto. intros K. apply HA. split; auto.
  - apply Classical_Pred_Type.not_all_ex_not in G. destruct G as (k & Hk). apply Classical_Prop.imply_to_and in Hk.
    rewrite (spectra_raises nsrc nchan ncoeffs flux coeffs lp rf freq g k); tauto.
Qed.

Theorem predict_superposes n1 n2 nrow nchan ncoeffs uvw lm kind flux coeffs lp rf gauss freq g : lp_fits (n1 + n2) lp ->
  (forall s, (s < n1 + n2)%nat -> acceptable ncoeffs kind flux coeffs lp s) ->
  exists A B V,
    wsclean_predict n1 nrow nchan ncoeffs uvw lm kind flux coeffs (head_lp n1 lp) rf gauss freq g = Ok A /\
    wsclean_predict n2 nrow nchan ncoeffs uvw (fun s => lm (n1 + s)%nat) (fun s => kind (n1 + s)%nat) (fun s => flux (n1 + s)%nat)
      (fun s => coeffs (n1 + s)%nat) (tail_lp n1 n2 lp) (fun s => rf (n1 + s)%nat) (fun s => gauss (n1 + s)%nat) freq g = Ok B /\
    wsclean_predict (n1 + n2) nrow nchan ncoeffs uvw lm kind flux coeffs lp rf gauss freq g = Ok V /\
    forall r f, (r < nrow)%nat -> (f < nchan)%nat -> V r f 0%nat = cadd (A r f 0%nat) (B r f 0%nat).
Proof.
  intros HL HA.
  destruct (predict_value n1 nrow nchan ncoeffs uvw lm kind flux coeffs (head_lp n1 lp) rf gauss freq g) as (A & EA & VA).
  { destruct lp; cbn; auto. } { intros s Hs. specialize (HA s ltac:(lia)). destruct lp; exact HA. }
  destruct (predict_value n2 nrow nchan ncoeffs uvw (fun s => lm (n1 + s)%nat) (fun s => kind (n1 + s)%nat) (fun s => flux (n1 + s)%nat)
      (fun s => coeffs (n1 + s)%nat) (tail_lp n1 n2 lp) (fun s => rf (n1 + s)%nat) (fun s => gauss (n1 + s)%nat) freq g) as (B & EB & VB).
  { destruct lp; cbn; auto. } { intros s Hs. specialize (HA (n1 + s)%nat ltac:(lia)). destruct lp; exact HA. }
  destruct (predict_value (n1 + n2) nrow nchan ncoeffs uvw lm kind flux coeffs lp rf gauss freq g HL HA) as (V & EV & VV).
  exists A, B, V. repeat split; auto. intros r f Hr Hf. rewrite VA, VB, VV by auto.
  rewrite (csum_split RC_laws). f_equal; apply csum_ext; intros s Hs; destruct lp; reflexivity.
Qed.
Theorem predict_conj nsrc nrow nchan ncoeffs uvw uvw' lm kind flux coeffs lp rf gauss freq g : lp_fits nsrc lp ->
  (forall s, (s < nsrc)%nat -> acceptable ncoeffs kind flux coeffs lp s) ->
  (forall r i, (r < nrow)%nat -> (i < 3)%nat -> uvw' r i = - uvw r i) ->
  exists V V', wsclean_predict nsrc nrow nchan ncoeffs uvw lm kind flux coeffs lp rf gauss freq g = Ok V /\
    wsclean_predict nsrc nrow nchan ncoeffs uvw' lm kind flux coeffs lp rf gauss freq g = Ok V' /\
    forall r f, (r < nrow)%nat -> (f < nchan)%nat -> V' r f 0%nat = cconj (V r f 0%nat).
Proof.
  intros HL HA HN.
  destruct (predict_value nsrc nrow nchan ncoeffs uvw lm kind flux coeffs lp rf gauss freq g HL HA) as (V & EV & VV).
  destruct (predict_value nsrc nrow nchan ncoeffs uvw' lm kind flux coeffs lp rf gauss freq g HL HA) as (V' & EV' & VV').
  exists V, V'. repeat split; auto. intros r f Hr Hf. rewrite VV, VV' by auto. rewrite (csum_conj RC_laws). apply csum_ext. intros s Hs.
  unfold component_vis. replace (src_delay lm uvw' freq s r f) with (- src_delay lm uvw freq s r f).
  2:{ unfold src_delay, delay. rewrite !HN by auto. unfold light. field. }
  rewrite cis_opp. replace (extent (kind s) _ _ _ (uvw' r 0%nat) (uvw' r 1%nat) _) with
    (extent (kind s) (gauss s 0%nat) (gauss s 1%nat) (gauss s 2%nat) (uvw r 0%nat) (uvw r 1%nat) (freq f)).
  - cbn. f_equal; ring.
  - unfold extent, envelope. rewrite !HN by auto. destruct (String.eqb _ _); auto. destruct (Req_EM_T _ _); auto. f_equal. unfold light. field.
Qed.
Theorem predict_point_gaussian nsrc nrow nchan ncoeffs uvw lm kind kind' flux coeffs lp rf gauss freq g : lp_fits nsrc lp ->
  (forall s, (s < nsrc)%nat -> acceptable ncoeffs kind flux coeffs lp s) ->
  (forall s, (s < nsrc)%nat -> kind' s = kind s \/ gauss s 0%nat = 0 /\ known_kind (kind' s)) ->
  exists V V', wsclean_predict nsrc nrow nchan ncoeffs uvw lm kind flux coeffs lp rf gauss freq g = Ok V /\
    wsclean_predict nsrc nrow nchan ncoeffs uvw lm kind' flux coeffs lp rf gauss freq g = Ok V' /\
    forall r f, (r < nrow)%nat -> (f < nchan)%nat -> V' r f 0%nat = V r f 0%nat.
Proof.
  intros HL HA HK.
  destruct (predict_value nsrc nrow nchan ncoeffs uvw lm kind flux coeffs lp rf gauss freq g HL HA) as (V & EV & VV).
  destruct (predict_value nsrc nrow nchan ncoeffs uvw lm kind' flux coeffs lp rf gauss freq g HL) as (V' & EV' & VV').
  { intros s Hs. destruct (HA s Hs) as (K & A). split; auto. destruct (HK s Hs) as [-> |(_ & K')]; auto. }
  exists V, V'. repeat split; auto. intros r f Hr Hf. rewrite VV, VV' by auto. apply csum_ext. intros s Hs.
  unfold component_vis. f_equal. f_equal. f_equal. unfold extent. destruct (HK s Hs) as [-> |(Z & _)]; auto.
  destruct (Req_EM_T (gauss s 0%nat) 0); [|contradiction]. destruct (String.eqb _ _), (String.eqb _ _); reflexivity.
Qed.

(* ---------- dask ---------- *)
Lemma fold_raise {A B} (step : B -> A -> res A) l e : fold_left (fun acc x => bind acc (step x)) l (Raise e) = Raise e.
Proof. induction l; cbn; auto. Qed.
Theorem dask_predict_eq src rows chan ncoeffs uvw lm kind flux coeffs lp rf gauss freq g g' r f :
  (r < list_sum rows)%nat -> (f < list_sum chan)%nat ->
  dask_wsclean_predict src rows chan [ncoeffs] uvw lm kind flux coeffs lp rf gauss freq g r f =
  do! V <- wsclean_predict (list_sum src) (list_sum rows) (list_sum chan) ncoeffs uvw lm kind flux coeffs (LArray (list_sum src) lp) rf gauss freq g';
  Ok (V r f 0%nat).
Proof.
  intros Hr Hf. unfold dask_wsclean_predict. destruct (locate 0 rows r) as [r0 nr] eqn:Er, (locate 0 chan f) as [f0 nf] eqn:Ef.
  apply locate_spec in Er; [|lia]. apply locate_spec in Ef; [|lia]. cbn [hd].
  set (n := list_sum src). set (val := component_vis lm uvw gauss kind freq (flux_of ncoeffs flux coeffs (LArray n lp) rf freq) r f).
  set (step := fun '(s0, ns) (acc : RC) =>
    do! spectrum <- spectra ns ns ns nf ncoeffs (fun i => flux (s0 + i)%nat) (fun i => coeffs (s0 + i)%nat) (LArray ns (fun i => lp (s0 + i)%nat))
                      (fun i => rf (s0 + i)%nat) (fun i => freq (f0 + i)%nat) g;
    do! vis <- wsclean_predict_impl ns nr nf (fun i => uvw (r0 + i)%nat) (fun i => lm (s0 + i)%nat) (fun i => kind (s0 + i)%nat)
                 (fun i => gauss (s0 + i)%nat) (fun i => freq (f0 + i)%nat) spectrum;
    Ok (cadd acc (vis (r - r0)%nat (f - f0)%nat 0%nat))).
  assert (ST : forall s0 ns acc,
    ((forall s, (s0 <= s < s0 + ns)%nat -> acceptable ncoeffs kind flux coeffs (LArray n lp) s) ->
      step (s0, ns) acc = Ok (cadd acc (csum ns (fun i => val (s0 + i)%nat)))) /\
    (forall s, (s0 <= s < s0 + ns)%nat -> ~ acceptable ncoeffs kind flux coeffs (LArray n lp) s -> step (s0, ns) acc = Raise ValueError)).
  { intros s0 ns acc.
    assert (EQ : step (s0, ns) acc = do! vis <- wsclean_predict ns nr nf ncoeffs (fun i => uvw (r0 + i)%nat) (fun i => lm (s0 + i)%nat) (fun i => kind (s0 + i)%nat)
       (fun i => flux (s0 + i)%nat) (fun i => coeffs (s0 + i)%nat) (LArray ns (fun i => lp (s0 + i)%nat)) (fun i => rf (s0 + i)%nat) (fun i => gauss (s0 + i)%nat) (fun i => freq (f0 + i)%nat) g;
       Ok (cadd acc (vis (r - r0)%nat (f - f0)%nat 0%nat))).
    { unfold step, wsclean_predict. destruct (spectra _ _ _ _ _ _ _ _ _ _ _); reflexivity. }
    rewrite EQ. split.
    - intros HA.
      destruct (predict_value ns nr nf ncoeffs (fun i => uvw (r0 + i)%nat) (fun i => lm (s0 + i)%nat) (fun i => kind (s0 + i)%nat)
       (fun i => flux (s0 + i)%nat) (fun i => coeffs (s0 + i)%nat) (LArray ns (fun i => lp (s0 + i)%nat)) (fun i => rf (s0 + i)%nat) (fun i => gauss (s0 + i)%nat) (fun i => freq (f0 + i)%nat) g) as (V & EV & VV).
      { reflexivity. } { intros s Hs. apply (HA (s0 + s)%nat). lia. }
      rewrite EV. cbn [bind]. rewrite VV by lia. do 2 f_equal. apply csum_ext. intros s Hs. unfold val, component_vis, src_delay, flux_of.
      replace (r0 + (r - r0))%nat with r by lia. replace (f0 + (f - f0))%nat with f by lia. reflexivity.
    - intros s Hs N. rewrite (predict_raises _ _ _ _ _ _ _ _ _ _ _ _ _ _ (s - s0)%nat); [reflexivity|reflexivity|lia|lia|].
      intros (K & A). apply N. replace s with (s0 + (s - s0))%nat by lia. split; auto. }
  assert (FO : forall l s0 acc,
    ((forall s, (s0 <= s < s0 + list_sum l)%nat -> acceptable ncoeffs kind flux coeffs (LArray n lp) s) ->
      fold_left (fun a x => bind a (step x)) (starts s0 l) (Ok acc) = Ok (cadd acc (csum (list_sum l) (fun i => val (s0 + i)%nat)))) /\
    (forall s, (s0 <= s < s0 + list_sum l)%nat -> ~ acceptable ncoeffs kind flux coeffs (LArray n lp) s ->
      fold_left (fun a x => bind a (step x)) (starts s0 l) (Ok acc) = Raise ValueError)).
  { induction l as [|k l IH]; intros s0 acc.
    - split; [|intros s Hs; cbn in Hs; lia]. intros _. cbn [starts fold_left list_sum fold_right csum]. f_equal. destruct acc. cbn. f_equal; ring.
    - change (list_sum (k :: l)) with (k + list_sum l)%nat. cbn [starts fold_left bind]. destruct (ST s0 k acc) as (S1 & S2). split.
      + intros HA. rewrite S1 by (intros s Hs; apply HA; lia).
        destruct (IH (s0 + k)%nat (cadd acc (csum k (fun i => val (s0 + i)%nat)))) as (I1 & _).
        rewrite I1 by (intros s Hs; apply HA; lia). f_equal. rewrite (csum_split RC_laws).
        rewrite <- (Radd_assoc (law_ring RC RC_laws)). do 2 f_equal. apply csum_ext. intros i Hi. f_equal. lia.
      + intros s Hs N. destruct (Classical_Prop.classic (forall i, (s0 <= i < s0 + k)%nat -> acceptable ncoeffs kind flux coeffs (LArray n lp) i)) as [G|G].
        * rewrite S1 by auto. apply (proj2 (IH (s0 + k)%nat _) s); auto. destruct (Nat.lt_ge_cases s (s0 + k)); [|lia]. destruct N. apply G. lia.
        * apply Classical_Pred_Type.not_all_ex_not in G. destruct G as (i & Hi). apply Classical_Prop.imply_to_and in Hi. destruct Hi as (Hi & Ni).
          rewrite (S2 i Hi Ni). apply fold_raise. }
  transitivity (fold_left (fun a x => bind a (step x)) (starts 0 src) (Ok (c0 : RC))).
  { generalize (Ok (c0 : RC)). induction (starts 0 src) as [|[s0 ns] l IH]; intros a; [reflexivity|]. cbn [fold_left]. rewrite <- IH. reflexivity. }
  destruct (FO src 0%nat c0) as (F1 & F2).
  destruct (Classical_Prop.classic (forall i, (i < n)%nat -> acceptable ncoeffs kind flux coeffs (LArray n lp) i)) as [G|G].
  - rewrite F1 by (intros s Hs; apply G; unfold n; lia).
    destruct (predict_value n (list_sum rows) (list_sum chan) ncoeffs uvw lm kind flux coeffs (LArray n lp) rf gauss freq g' eq_refl G) as (V & EV & VV).
    rewrite EV. cbn [bind]. rewrite VV by auto. f_equal. exact (Radd_0_l (law_ring RC RC_laws) _).
  - apply Classical_Pred_Type.not_all_ex_not in G. destruct G as (i & Hi). apply Classical_Prop.imply_to_and in Hi. destruct Hi as (Hi & Ni).
    rewrite (F2 i) by (auto; unfold n in Hi; lia). rewrite (predict_raises n _ _ _ _ _ _ _ _ _ _ _ _ _ i); auto; [reflexivity|lia].
Qed.
