From Coq Require Import String Permutation Ring.
From Verif Require Import Prelude PreludeFacts CRing CohModel CohSpec CohProofs CohProofs2.
Open Scope nat_scope.
Open Scope string_scope.
Open Scope list_scope.

Section Pol.
  Context {K : cops} (L : claws K) (half : K) (Hh : cadd half half = (1%K : K)).
  Add Ring Kring : (law_ring K L).
  Notation cx := (CohModel.cx K).
  Notation conv := (stokes_conv half).
  Open Scope K_scope.

  Lemma halve (x y : K) : x + x = y -> y * half = x.
  Proof. intros <-. transitivity (x * (half + half)); [ring|]. rewrite Hh. ring. Qed.

  Lemma carries_eq (a : ndarr K) f t val i s x : carries a f t val -> at_ t i s -> val s = Some x -> nd_at a (f ++ i) = x.
  Proof. intros H A E. exact (H i s x A E). Qed.

  Lemma only_not t ns s : only t ns -> ~ In s ns -> ~ exists i, at_ t i s.
  Proof. intros O N (i & Hi). apply N. eapply O; eauto. Qed.

  Ltac here := apply fp_here; [match goal with X : all_of _ _ |- _ => apply X end; cbn; tauto
                              | match goal with X : all_of _ _ |- _ => apply X end; cbn; tauto].

  Lemma eqx (a b c d : K) : a = c -> b = d -> (a, b) = (c, d) :> cx.
  Proof. now intros -> ->. Qed.

  (* the four values from Stokes parameters *)
  Section Forward.
    Variables (is os : sch) (fs di do_ : list nat) (a : ndarr K) (g : list nat -> cx).
    Hypothesis Ri : rect (boxed is) di.
    Hypothesis Di : distinct (boxed is).
    Hypothesis Ro : rect (boxed os) do_.
    Hypothesis Do : distinct (boxed os).
    Hypothesis Ha : nd_shape a = (fs ++ di)%list.
    Hypothesis Ai : all_of (boxed is) STOKES.

    Ltac oneof H := cbn in H; repeat (destruct H as [H|H]; [subst|]); [..|destruct H].

    Theorem stokes_to_linear : only (boxed os) LINEAR ->
      exists out, convert half g a is os = Ok out /\ nd_shape out = (fs ++ do_)%list /\
        forall f i q u v, carries a f (boxed is) (stokes_of i q u v) -> carries out f (boxed os) (linear_of i q u v).
    Proof.
      intros Oo.
      assert (Hp : forall idx s, at_ (boxed os) idx s -> exists deps p q fn, assoc s conv = Some deps /\ first_pair (boxed is) deps p q fn).
      { intros idx s As. apply Oo in As. oneof As; do 4 eexists; (split; [reflexivity | here]). }
      destruct (convert_ok half g a is os fs di do_ Ri Di Ro Do Ha Hp) as (out & E & Sh & V).
      exists out. split; auto. split; auto. intros f i q u v Hc idx s y As Ey.
      destruct (V f idx s As) as (deps & c1 & c2 & fn & i1 & j1 & E1 & Fp & A1 & A2 & ->).
      apply Oo in As. oneof As; cbn in E1, Ey; injection E1 as <-; injection Ey as <-;
        inversion Fp; subst;
        try (match goal with X : first_pair _ [] _ _ _ |- _ => inversion X end);
        rewrite (carries_eq _ _ _ _ _ _ _ Hc A1 eq_refl), (carries_eq _ _ _ _ _ _ _ Hc A2 eq_refl);
        unfold xadd, xsub, xmulj, cx0; cbn [fst snd]; apply eqx; ring.
    Qed.
    Theorem stokes_to_circular : only (boxed os) CIRCULAR ->
      exists out, convert half g a is os = Ok out /\ nd_shape out = (fs ++ do_)%list /\
        forall f i q u v, carries a f (boxed is) (stokes_of i q u v) -> carries out f (boxed os) (circular_of i q u v).
    Proof.
      intros Oo.
      assert (Hp : forall idx s, at_ (boxed os) idx s -> exists deps p q fn, assoc s conv = Some deps /\ first_pair (boxed is) deps p q fn).
      { intros idx s As. apply Oo in As. oneof As; do 4 eexists; (split; [reflexivity | here]). }
      destruct (convert_ok half g a is os fs di do_ Ri Di Ro Do Ha Hp) as (out & E & Sh & V).
      exists out. split; auto. split; auto. intros f i q u v Hc idx s y As Ey.
      destruct (V f idx s As) as (deps & c1 & c2 & fn & i1 & j1 & E1 & Fp & A1 & A2 & ->).
      apply Oo in As. oneof As; cbn in E1, Ey; injection E1 as <-; injection Ey as <-;
        inversion Fp; subst;
        try (match goal with X : first_pair _ [] _ _ _ |- _ => inversion X end);
        rewrite (carries_eq _ _ _ _ _ _ _ Hc A1 eq_refl), (carries_eq _ _ _ _ _ _ _ Hc A2 eq_refl);
        unfold xadd, xsub, xmulj, cx0; cbn [fst snd]; apply eqx; ring.
    Qed.
  End Forward.

  Section Backward.
    Variables (is os : sch) (fs di do_ : list nat) (a : ndarr K) (g : list nat -> cx).
    Hypothesis Ri : rect (boxed is) di.
    Hypothesis Di : distinct (boxed is).
    Hypothesis Ro : rect (boxed os) do_.
    Hypothesis Do : distinct (boxed os).
    Hypothesis Ha : nd_shape a = (fs ++ di)%list.
    Hypothesis Oo : only (boxed os) STOKES.

    Ltac oneof H := cbn in H; repeat (destruct H as [H|H]; [subst|]); [..|destruct H].
    Ltac fin Hc A1 A2 := rewrite (carries_eq _ _ _ _ _ _ _ Hc A1 eq_refl), (carries_eq _ _ _ _ _ _ _ Hc A2 eq_refl);
        unfold xadd, xsub, xre, xim; cbn [fst snd]; apply eqx; try (apply halve); ring.

    (* what the Stokes outputs are: combinations of the correlations, for any correlations *)
    Theorem linear_to_stokes : all_of (boxed is) LINEAR ->
      exists out, convert half g a is os = Ok out /\ nd_shape out = (fs ++ do_)%list /\
        forall f i q u v, carries a f (boxed is) (linear_of i q u v) -> carries out f (boxed os) (stokes_of i q u v).
    Proof.
      intros Ai.
      assert (Hp : forall idx s, at_ (boxed os) idx s -> exists deps p q fn, assoc s conv = Some deps /\ first_pair (boxed is) deps p q fn).
      { intros idx s As. apply Oo in As. oneof As; do 4 eexists; (split; [reflexivity | here]). }
      destruct (convert_ok half g a is os fs di do_ Ri Di Ro Do Ha Hp) as (out & E & Sh & V).
      exists out. split; auto. split; auto. intros f i q u v Hc idx s y As Ey.
      destruct (V f idx s As) as (deps & c1 & c2 & fn & i1 & j1 & E1 & Fp & A1 & A2 & ->).
      apply Oo in As. oneof As; cbn in E1, Ey; injection E1 as <-; injection Ey as <-;
        (inversion Fp; subst;
        [fin Hc A1 A2
        |exfalso; match goal with X : ~ _ |- _ => apply X; split; apply Ai; cbn; tauto end]).
    Qed.
    Theorem circular_to_stokes : all_of (boxed is) CIRCULAR -> only (boxed is) CIRCULAR ->
      exists out, convert half g a is os = Ok out /\ nd_shape out = (fs ++ do_)%list /\
        forall f i q u v, carries a f (boxed is) (circular_of i q u v) -> carries out f (boxed os) (stokes_of i q u v).
    Proof.
      intros Ai Oi.
      assert (Hp : forall idx s, at_ (boxed os) idx s -> exists deps p q fn, assoc s conv = Some deps /\ first_pair (boxed is) deps p q fn).
      { intros idx s As. apply Oo in As. oneof As; do 4 eexists; (split; [reflexivity |]);
        (apply fp_next; [intros (X & _); revert X; eapply only_not; [exact Oi | cbn; intuition discriminate] | here]). }
      destruct (convert_ok half g a is os fs di do_ Ri Di Ro Do Ha Hp) as (out & E & Sh & V).
      exists out. split; auto. split; auto. intros f i q u v Hc idx s y As Ey.
      destruct (V f idx s As) as (deps & c1 & c2 & fn & i1 & j1 & E1 & Fp & A1 & A2 & ->).
      apply Oo in As. oneof As; cbn in E1, Ey; injection E1 as <-; injection Ey as <-;
        (inversion Fp; subst;
        [exfalso; apply Oi in A1; cbn in A1; intuition discriminate
        |match goal with X : first_pair _ _ _ _ _ |- _ => inversion X; subst end;
         [fin Hc A1 A2 | match goal with X : first_pair _ [] _ _ _ |- _ => inversion X end]]).
    Qed.
  End Backward.

  (* ---------- round trips ---------- *)
  Lemma split_inside idx fs di : inside idx (fs ++ di)%list -> exists f i, idx = (f ++ i)%list /\ inside f fs /\ inside i di.
  Proof. intros H. apply Forall2_app_inv_r in H. destruct H as (f & i & A & B & ->). eauto. Qed.

  Lemma all_real_stokes (a : ndarr K) fs t dims f : rect t dims -> all_of t STOKES -> only t STOKES -> distinct t ->
    nd_shape a = (fs ++ dims)%list -> inside f fs ->
    (forall idx, inside idx (nd_shape a) -> is_real (nd_at a idx)) ->
    exists i q u v, carries a f t (stokes_of i q u v).
  Proof.
    intros R A O D Hs Hf Hr.
    destruct (A "I") as (i & Pi). { cbn; tauto. } destruct (A "Q") as (q & Pq). { cbn; tauto. }
    destruct (A "U") as (u & Pu). { cbn; tauto. } destruct (A "V") as (v & Pv). { cbn; tauto. }
    assert (Re : forall x s, at_ t x s -> nd_at a (f ++ x)%list = (fst (nd_at a (f ++ x)%list), 0)).
    { intros x s Hx. specialize (Hr (f ++ x)%list). unfold is_real in Hr. rewrite <- Hr.
      - apply surjective_pairing.
      - rewrite Hs. apply Forall2_app; auto. eapply rect_at; eauto. }
    exists (fst (nd_at a (f ++ i)%list)), (fst (nd_at a (f ++ q)%list)), (fst (nd_at a (f ++ u)%list)), (fst (nd_at a (f ++ v)%list)).
    intros x s y Hx Ey. assert (Hs' := O _ _ Hx). cbn in Hs'.
    destruct Hs' as [<-|[<-|[<-|[<-|[]]]]]; cbn in Ey; injection Ey as <-; rewrite (Re _ _ Hx).
    - now rewrite (D _ _ _ Hx Pi).
    - now rewrite (D _ _ _ Hx Pq).
    - now rewrite (D _ _ _ Hx Pu).
    - now rewrite (D _ _ _ Hx Pv).
  Qed.

  Lemma same_carry (a b : ndarr K) f t val dims : carries a f t val -> carries b f t val ->
    (forall idx s, at_ t idx s -> exists x, val s = Some x) -> rect t dims -> forall idx, inside idx dims -> nd_at b (f ++ idx)%list = nd_at a (f ++ idx)%list.
  Proof.
    intros Ca Cb T R idx Hi. destruct (rect_inside _ _ R idx Hi) as (s & Hs). destruct (T idx s Hs) as (x & Ex).
    rewrite (Ca idx s x Hs Ex). exact (Cb idx s x Hs Ex).
  Qed.

  Section Round.
    Variables (is os : sch) (fs di do_ : list nat) (a : ndarr K) (g g' : list nat -> cx).
    Hypothesis Ri : rect (boxed is) di.
    Hypothesis Di : distinct (boxed is).
    Hypothesis Ro : rect (boxed os) do_.
    Hypothesis Do : distinct (boxed os).
    Hypothesis Ha : nd_shape a = (fs ++ di)%list.

    Theorem stokes_linear_stokes : all_of (boxed is) STOKES -> only (boxed is) STOKES ->
      all_of (boxed os) LINEAR -> only (boxed os) LINEAR ->
      (forall idx, inside idx (nd_shape a) -> is_real (nd_at a idx)) ->
      exists c b, convert half g a is os = Ok c /\ convert half g' c os is = Ok b /\ nd_shape b = nd_shape a /\
        forall idx, inside idx (nd_shape a) -> nd_at b idx = nd_at a idx.
    Proof.
      intros A O A' O' Hr.
      destruct (stokes_to_linear is os fs di do_ a g Ri Di Ro Do Ha A O') as (c & Ec & Sc & Vc).
      destruct (linear_to_stokes os is fs do_ di c g' Ro Do Ri Di Sc O A') as (b & Eb & Sb & Vb).
      exists c, b. split; auto. split; auto. split; [congruence|]. intros idx Hi. rewrite Ha in Hi.
      destruct (split_inside _ _ _ Hi) as (f & i & -> & Hf & Hi').
      destruct (all_real_stokes a fs _ _ f Ri A O Di Ha Hf Hr) as (vi & vq & vu & vv & Hc).
      apply (same_carry a b f (boxed is) (stokes_of vi vq vu vv) di); auto.
      intros x s Hx. apply O in Hx. cbn in Hx. destruct Hx as [<-|[<-|[<-|[<-|[]]]]]; cbn; eauto.
    Qed.
    Theorem stokes_circular_stokes : all_of (boxed is) STOKES -> only (boxed is) STOKES ->
      all_of (boxed os) CIRCULAR -> only (boxed os) CIRCULAR ->
      (forall idx, inside idx (nd_shape a) -> is_real (nd_at a idx)) ->
      exists c b, convert half g a is os = Ok c /\ convert half g' c os is = Ok b /\ nd_shape b = nd_shape a /\
        forall idx, inside idx (nd_shape a) -> nd_at b idx = nd_at a idx.
    Proof.
      intros A O A' O' Hr.
      destruct (stokes_to_circular is os fs di do_ a g Ri Di Ro Do Ha A O') as (c & Ec & Sc & Vc).
      destruct (circular_to_stokes os is fs do_ di c g' Ro Do Ri Di Sc O A' O') as (b & Eb & Sb & Vb).
      exists c, b. split; auto. split; auto. split; [congruence|]. intros idx Hi. rewrite Ha in Hi.
      destruct (split_inside _ _ _ Hi) as (f & i & -> & Hf & Hi').
      destruct (all_real_stokes a fs _ _ f Ri A O Di Ha Hf Hr) as (vi & vq & vu & vv & Hc).
      apply (same_carry a b f (boxed is) (stokes_of vi vq vu vv) di); auto.
      intros x s Hx. apply O in Hx. cbn in Hx. destruct Hx as [<-|[<-|[<-|[<-|[]]]]]; cbn; eauto.
    Qed.

    Lemma herm_linear f : all_of (boxed is) LINEAR -> only (boxed is) LINEAR -> hermitian a f (boxed is) "XX" "XY" "YX" "YY" ->
      exists i q u v, carries a f (boxed is) (linear_of i q u v).
    Proof.
      intros A O (H1 & H2).
      destruct (A "XX") as (p & P1). { cbn; tauto. } destruct (A "XY") as (q & P2). { cbn; tauto. }
      destruct (A "YX") as (r & P3). { cbn; tauto. } destruct (A "YY") as (s & P4). { cbn; tauto. }
      set (xp := fst (nd_at a (f ++ p)%list)). set (xs := fst (nd_at a (f ++ s)%list)).
      exists ((xp + xs) * half), ((xp - xs) * half), (fst (nd_at a (f ++ q)%list)), (snd (nd_at a (f ++ q)%list)).
      assert (E1 : (xp + xs) * half + (xp - xs) * half = xp) by (transitivity (xp * (half + half)); [ring | rewrite Hh; ring]).
      assert (E2 : (xp + xs) * half - (xp - xs) * half = xs) by (transitivity (xs * (half + half)); [ring | rewrite Hh; ring]).
      intros x n y Hx Ey. assert (Hs' := O _ _ Hx). cbn in Hs'.
      destruct Hs' as [<-|[<-|[<-|[<-|[]]]]]; cbn in Ey; injection Ey as <-.
      - rewrite (Di _ _ _ Hx P1), E1. assert (X := H1 p (or_introl P1)). unfold is_real in X. unfold xp. rewrite <- X.
        apply surjective_pairing.
      - rewrite (Di _ _ _ Hx P2). apply surjective_pairing.
      - rewrite (Di _ _ _ Hx P3). rewrite (H2 q r P2 P3). reflexivity.
      - rewrite (Di _ _ _ Hx P4), E2. assert (X := H1 s (or_intror P4)). unfold is_real in X. unfold xs. rewrite <- X.
        apply surjective_pairing.
    Qed.
    Lemma herm_circular f : all_of (boxed is) CIRCULAR -> only (boxed is) CIRCULAR -> hermitian a f (boxed is) "RR" "RL" "LR" "LL" ->
      exists i q u v, carries a f (boxed is) (circular_of i q u v).
    Proof.
      intros A O (H1 & H2).
      destruct (A "RR") as (p & P1). { cbn; tauto. } destruct (A "RL") as (q & P2). { cbn; tauto. }
      destruct (A "LR") as (r & P3). { cbn; tauto. } destruct (A "LL") as (s & P4). { cbn; tauto. }
      set (xp := fst (nd_at a (f ++ p)%list)). set (xs := fst (nd_at a (f ++ s)%list)).
      exists ((xp + xs) * half), (fst (nd_at a (f ++ q)%list)), (snd (nd_at a (f ++ q)%list)), ((xp - xs) * half).
      assert (E1 : (xp + xs) * half + (xp - xs) * half = xp) by (transitivity (xp * (half + half)); [ring | rewrite Hh; ring]).
      assert (E2 : (xp + xs) * half - (xp - xs) * half = xs) by (transitivity (xs * (half + half)); [ring | rewrite Hh; ring]).
      intros x n y Hx Ey. assert (Hs' := O _ _ Hx). cbn in Hs'.
      destruct Hs' as [<-|[<-|[<-|[<-|[]]]]]; cbn in Ey; injection Ey as <-.
      - rewrite (Di _ _ _ Hx P1), E1. assert (X := H1 p (or_introl P1)). unfold is_real in X. unfold xp. rewrite <- X.
        apply surjective_pairing.
      - rewrite (Di _ _ _ Hx P2). apply surjective_pairing.
      - rewrite (Di _ _ _ Hx P3). rewrite (H2 q r P2 P3). reflexivity.
      - rewrite (Di _ _ _ Hx P4), E2. assert (X := H1 s (or_intror P4)). unfold is_real in X. unfold xs. rewrite <- X.
        apply surjective_pairing.
    Qed.

    Theorem linear_stokes_linear : all_of (boxed is) LINEAR -> only (boxed is) LINEAR ->
      all_of (boxed os) STOKES -> only (boxed os) STOKES ->
      (forall f, inside f fs -> hermitian a f (boxed is) "XX" "XY" "YX" "YY") ->
      exists c b, convert half g a is os = Ok c /\ convert half g' c os is = Ok b /\ nd_shape b = nd_shape a /\
        forall idx, inside idx (nd_shape a) -> nd_at b idx = nd_at a idx.
    Proof.
      intros A O A' O' Hr.
      destruct (linear_to_stokes is os fs di do_ a g Ri Di Ro Do Ha O' A) as (c & Ec & Sc & Vc).
      destruct (stokes_to_linear os is fs do_ di c g' Ro Do Ri Di Sc A' O) as (b & Eb & Sb & Vb).
      exists c, b. split; auto. split; auto. split; [congruence|]. intros idx Hi. rewrite Ha in Hi.
      destruct (split_inside _ _ _ Hi) as (f & i & -> & Hf & Hi').
      destruct (herm_linear f A O (Hr f Hf)) as (vi & vq & vu & vv & Hc).
      apply (same_carry a b f (boxed is) (linear_of vi vq vu vv) di); auto.
      intros x s Hx. apply O in Hx. cbn in Hx. destruct Hx as [<-|[<-|[<-|[<-|[]]]]]; cbn; eauto.
    Qed.
    Theorem circular_stokes_circular : all_of (boxed is) CIRCULAR -> only (boxed is) CIRCULAR ->
      all_of (boxed os) STOKES -> only (boxed os) STOKES ->
      (forall f, inside f fs -> hermitian a f (boxed is) "RR" "RL" "LR" "LL") ->
      exists c b, convert half g a is os = Ok c /\ convert half g' c os is = Ok b /\ nd_shape b = nd_shape a /\
        forall idx, inside idx (nd_shape a) -> nd_at b idx = nd_at a idx.
    Proof.
      intros A O A' O' Hr.
      destruct (circular_to_stokes is os fs di do_ a g Ri Di Ro Do Ha O' A O) as (c & Ec & Sc & Vc).
      destruct (stokes_to_circular os is fs do_ di c g' Ro Do Ri Di Sc A' O) as (b & Eb & Sb & Vb).
      exists c, b. split; auto. split; auto. split; [congruence|]. intros idx Hi. rewrite Ha in Hi.
      destruct (split_inside _ _ _ Hi) as (f & i & -> & Hf & Hi').
      destruct (herm_circular f A O (Hr f Hf)) as (vi & vq & vu & vv & Hc).
      apply (same_carry a b f (boxed is) (circular_of vi vq vu vv) di); auto.
      intros x s Hx. apply O in Hx. cbn in Hx. destruct Hx as [<-|[<-|[<-|[<-|[]]]]]; cbn; eauto.
    Qed.
  End Round.
End Pol.

Lemma first_pair_det {F} t (deps : list ((string * string) * F)) a b f a' b' f' :
  first_pair t deps a b f -> first_pair t deps a' b' f' -> a = a' /\ b = b' /\ f = f'.
Proof.
  intros H. induction H as [a b f l Ha Hb|a b f l a1 b1 f1 Hn H IH]; intros H2; inversion H2; subst; auto;
    exfalso; tauto.
Qed.

(* each leading index is converted on its own *)
Theorem convert_pointwise {K : cops} (half : K) g g' (a a' : ndarr K) is os fs fs' di do_ (rho : list nat -> list nat) :
  rect (boxed is) di -> distinct (boxed is) -> rect (boxed os) do_ -> distinct (boxed os) ->
  nd_shape a = (fs ++ di)%list -> nd_shape a' = (fs' ++ di)%list ->
  (forall idx s, at_ (boxed os) idx s -> exists deps p q fn, assoc s (stokes_conv half) = Some deps /\ first_pair (boxed is) deps p q fn) ->
  (forall f i, inside f fs' -> inside i di -> nd_at a' (f ++ i)%list = nd_at a (rho f ++ i)%list) ->
  exists out out', convert half g a is os = Ok out /\ convert half g' a' is os = Ok out' /\
    nd_shape out = (fs ++ do_)%list /\ nd_shape out' = (fs' ++ do_)%list /\
    forall f i, inside f fs' -> inside i do_ -> nd_at out' (f ++ i)%list = nd_at out (rho f ++ i)%list.
Proof.
  intros Ri Di Ro Do Ha Ha' Hp Hr.
  destruct (convert_ok half g a is os fs di do_ Ri Di Ro Do Ha Hp) as (out & E & Sh & V).
  destruct (convert_ok half g' a' is os fs' di do_ Ri Di Ro Do Ha' Hp) as (out' & E' & Sh' & V').
  exists out, out'. repeat (split; [assumption|]). intros f i Hf Hi.
  destruct (rect_inside _ _ Ro i Hi) as (s & Hs).
  destruct (V (rho f) i s Hs) as (deps & p & q & fn & x & y & E1 & F1 & X1 & Y1 & ->).
  destruct (V' f i s Hs) as (deps' & p' & q' & fn' & x' & y' & E2 & F2 & X2 & Y2 & ->).
  assert (deps' = deps) by congruence. subst deps'.
  destruct (first_pair_det _ _ _ _ _ _ _ _ F1 F2) as (-> & -> & ->).
  rewrite (Di _ _ _ X1 X2), (Di _ _ _ Y1 Y2).
  rewrite !Hr; auto; eapply rect_at; eauto.
Qed.

Lemma type_id_spec s n : type_id s = Some n <-> nth_error casacore_codes n = Some (s, n).
Proof.
  split.
  - unfold type_id. destruct (filter _ _) as [|kv l] eqn:E; [discriminate|]. intros X. injection X as <-.
    assert (H : In kv (kv :: l)) by now left. rewrite <- E in H. apply filter_In in H. destruct H as (H & Es).
    apply String.eqb_eq in Es. subst s. apply in_rev in H. clear E l.
    revert kv H. apply Forall_forall. vm_compute. repeat constructor.
  - intros H. assert (B : n < 33). { assert (X : n < List.length casacore_codes) by (apply nth_error_Some; congruence). exact X. }
    revert s H. do 33 (destruct n as [|n]; [intros s H; cbn in H; injection H as <-; vm_compute; reflexivity|]). lia.
Qed.
Lemma id_type_casa z : id_type z = casa_name z.
Proof. exact (id_type_spec z). Qed.
Theorem id_type_iff z s : id_type z = Some s <-> exists n, z = Z.of_nat n /\ In (s, n) casacore_codes.
Proof.
  rewrite id_type_casa. unfold casa_name. split.
  - destruct (Z.leb_spec 0 z); [destruct (Z.ltb_spec z 33)|]; cbn [andb]; try discriminate. intros E.
    exists (Z.to_nat z). split; [lia|].
    assert (B : Z.to_nat z < 33) by lia. revert E. generalize (Z.to_nat z) as n. clear. intros n.
    assert (F : forall k kv, nth_error casacore_codes k = Some kv -> snd kv = k).
    { intros k kv Hk. assert (B : k < List.length casacore_codes) by (apply nth_error_Some; congruence).
      change (List.length casacore_codes) with 33 in B. revert kv Hk.
      do 33 (destruct k as [|k]; [intros kv Hk; cbn in Hk; injection Hk as <-; reflexivity|]). lia. }
    destruct (nth_error casacore_codes n) as [[s0 k]|] eqn:En; [|discriminate]. cbn. intros E. injection E as ->.
    assert (X := F _ _ En). cbn in X. subst k. exact (nth_error_In _ _ En).
  - intros (n & -> & H). revert s n H.
    assert (G : Forall (fun kv => (if (Z.leb 0 (Z.of_nat (snd kv)) && Z.ltb (Z.of_nat (snd kv)) 33)%bool
      then option_map fst (nth_error casacore_codes (Z.to_nat (Z.of_nat (snd kv)))) else None) = Some (fst kv)) casacore_codes).
    { vm_compute. repeat constructor. }
    rewrite Forall_forall in G. intros s n H. exact (G (s, n) H).
Qed.
Theorem type_id_iff s n : type_id s = Some n <-> In (s, n) casacore_codes.
Proof.
  rewrite type_id_spec. split; [apply nth_error_In|]. revert s n.
  assert (G : Forall (fun kv => nth_error casacore_codes (snd kv) = Some kv) casacore_codes).
  { vm_compute. repeat constructor. }
  rewrite Forall_forall in G. intros s n H. exact (G (s, n) H).
Qed.
