(* C124: rounding errors of Stokes conversion. *)
From Coq Require Import Reals String Lra Lia.
From Verif Require Import Prelude PreludeFacts CRing CplxR CohModel CohSpec CohProofs CohProofs2 CohProofs3 RoundSpec RhogSpec RhogProofs RcohModel RcohSpec.
Open Scope R_scope.
Open Scope string_scope.
Open Scope list_scope.

Section Rounded.
  Context (fl : R -> R) (u : R) (B : binary fl u).
  Notation K := (rounded_real fl).
  Notation half := (/ 2 : K).
  Notation conv := (stokes_conv (K := K) half).
  Lemma Hr : rounding fl u. Proof. apply B. Qed.
  Lemma z0 : fl 0 = 0. Proof. exact (fl_z fl u Hr). Qed.
  Lemma idem x : fl (fl x) = fl x. Proof. exact (fl_idem fl u Hr x). Qed.
  Lemma neg x : fl (- x) = - fl x. Proof. apply B. Qed.
  Lemma dbl x : fl (2 * x) = 2 * fl x. Proof. apply B. Qed.
  Lemma halved x : fl (x / 2) = fl x / 2.
  Proof. pose proof (dbl (x / 2)) as H. replace (2 * (x / 2)) with x in H by field. lra. Qed.
  Lemma mean x : fl (fl x * / 2) = fl (x / 2).
  Proof. change (fl x * / 2) with (fl x / 2). now rewrite !halved, idem. Qed.

  Ltac here := apply fp_here; [match goal with X : all_of _ _ |- _ => apply X end; cbn; tauto
                              | match goal with X : all_of _ _ |- _ => apply X end; cbn; tauto].
  Ltac oneof H := cbn in H; repeat (destruct H as [H|H]; [subst|]); [..|destruct H].
  Ltac simp := repeat rewrite ?Ropp_0, ?Rplus_0_l, ?Rplus_0_r, ?Rminus_0_r, ?z0, ?idem, ?Rminus_0_l, ?neg, ?mean; unfold Rdiv; repeat rewrite ?Rmult_0_l, ?z0.

  Section Conv.
    Context (is os : sch) (fs di do_ : list nat) (a : ndarr K) (g : list nat -> CohModel.cx K).
    Context (Ri : rect (boxed is) di) (Di : distinct (boxed is)) (Ro : rect (boxed os) do_) (Do : distinct (boxed os)) (Ha : nd_shape a = fs ++ di).
    Theorem to_linear : all_of (boxed is) STOKES -> only (boxed os) LINEAR ->
      exists out, convert (K := K) half g a is os = Ok out /\ nd_shape out = fs ++ do_ /\
        forall f i q uu v, carries (K := K) a f (boxed is) (stokes_of (K := K) i q uu v) ->
        carries (K := K) out f (boxed os) (rounded_once fl (linear_of (K := RR) i q uu v)).
    Proof using B Ri Di Ro Do Ha.
      intros Ai Oo.
      assert (Hp : forall idx s, at_ (boxed os) idx s -> exists deps p q fn, assoc s conv = Some deps /\ first_pair (boxed is) deps p q fn).
      { intros idx s As. apply Oo in As. oneof As; do 4 eexists; (split; [reflexivity | here]). }
      destruct (convert_ok (K := K) half g a is os fs di do_ Ri Di Ro Do Ha Hp) as (out & E & Sh & V).
      exists out. split; auto. split; auto. intros f i q uu v Hc idx s y As Ey.
      destruct (V f idx s As) as (deps & c1 & c2 & fn & i1 & j1 & E1 & Fp & A1 & A2 & ->).
      apply Oo in As. oneof As; cbn in E1, Ey; injection E1 as <-; injection Ey as <-;
        inversion Fp; subst;
        try (match goal with X : first_pair _ [] _ _ _ |- _ => inversion X end);
        rewrite (carries_eq _ _ _ _ _ _ _ Hc A1 eq_refl), (carries_eq _ _ _ _ _ _ _ Hc A2 eq_refl);
        unfold xadd, xsub, xmulj, cx0; cbn; simp; reflexivity.
    Qed.
    Theorem to_circular : all_of (boxed is) STOKES -> only (boxed os) CIRCULAR ->
      exists out, convert (K := K) half g a is os = Ok out /\ nd_shape out = fs ++ do_ /\
        forall f i q uu v, carries (K := K) a f (boxed is) (stokes_of (K := K) i q uu v) ->
        carries (K := K) out f (boxed os) (rounded_once fl (circular_of (K := RR) i q uu v)).
    Proof using B Ri Di Ro Do Ha.
      intros Ai Oo.
      assert (Hp : forall idx s, at_ (boxed os) idx s -> exists deps p q fn, assoc s conv = Some deps /\ first_pair (boxed is) deps p q fn).
      { intros idx s As. apply Oo in As. oneof As; do 4 eexists; (split; [reflexivity | here]). }
      destruct (convert_ok (K := K) half g a is os fs di do_ Ri Di Ro Do Ha Hp) as (out & E & Sh & V).
      exists out. split; auto. split; auto. intros f i q uu v Hc idx s y As Ey.
      destruct (V f idx s As) as (deps & c1 & c2 & fn & i1 & j1 & E1 & Fp & A1 & A2 & ->).
      apply Oo in As. oneof As; cbn in E1, Ey; injection E1 as <-; injection Ey as <-;
        inversion Fp; subst;
        try (match goal with X : first_pair _ [] _ _ _ |- _ => inversion X end);
        rewrite (carries_eq _ _ _ _ _ _ _ Hc A1 eq_refl), (carries_eq _ _ _ _ _ _ _ Hc A2 eq_refl);
        unfold xadd, xsub, xmulj, cx0; cbn; simp; reflexivity.
    Qed.
    Theorem from_linear : all_of (boxed is) LINEAR -> only (boxed os) STOKES ->
      exists out, convert (K := K) half g a is os = Ok out /\ nd_shape out = fs ++ do_ /\
        forall f xx xy yx yy, carries (K := K) a f (boxed is) (these LINEAR [xx; xy; yx; yy]) ->
        carries (K := K) out f (boxed os) (rounded_once fl (stokes_of_linear xx xy yx yy)).
    Proof using B Ri Di Ro Do Ha.
      intros Ai Oo.
      assert (Hp : forall idx s, at_ (boxed os) idx s -> exists deps p q fn, assoc s conv = Some deps /\ first_pair (boxed is) deps p q fn).
      { intros idx s As. apply Oo in As. oneof As; do 4 eexists; (split; [reflexivity | here]). }
      destruct (convert_ok (K := K) half g a is os fs di do_ Ri Di Ro Do Ha Hp) as (out & E & Sh & V).
      exists out. split; auto. split; auto. intros f xx xy yx yy Hc idx s y As Ey.
      destruct (V f idx s As) as (deps & c1 & c2 & fn & i1 & j1 & E1 & Fp & A1 & A2 & ->).
      apply Oo in As. oneof As; cbn in E1, Ey; injection E1 as <-; injection Ey as <-;
        (inversion Fp; subst;
        [rewrite (carries_eq _ _ _ _ _ _ _ Hc A1 eq_refl), (carries_eq _ _ _ _ _ _ _ Hc A2 eq_refl); unfold xadd, xsub, xre, xim; cbn; rewrite mean, z0; reflexivity
        |exfalso; match goal with X : ~ _ |- _ => apply X; split; apply Ai; cbn; tauto end]).
    Qed.
    Theorem from_circular : all_of (boxed is) CIRCULAR -> only (boxed is) CIRCULAR -> only (boxed os) STOKES ->
      exists out, convert (K := K) half g a is os = Ok out /\ nd_shape out = fs ++ do_ /\
        forall f rr rl lr ll, carries (K := K) a f (boxed is) (these CIRCULAR [rr; rl; lr; ll]) ->
        carries (K := K) out f (boxed os) (rounded_once fl (stokes_of_circular rr rl lr ll)).
    Proof using B Ri Di Ro Do Ha.
      intros Ai Oi Oo.
      assert (Hp : forall idx s, at_ (boxed os) idx s -> exists deps p q fn, assoc s conv = Some deps /\ first_pair (boxed is) deps p q fn).
      { intros idx s As. apply Oo in As. oneof As; do 4 eexists; (split; [reflexivity |]);
        (apply fp_next; [intros (X & _); revert X; eapply only_not; [exact Oi | cbn; intuition discriminate] | here]). }
      destruct (convert_ok (K := K) half g a is os fs di do_ Ri Di Ro Do Ha Hp) as (out & E & Sh & V).
      exists out. split; auto. split; auto. intros f rr rl lr ll Hc idx s y As Ey.
      destruct (V f idx s As) as (deps & c1 & c2 & fn & i1 & j1 & E1 & Fp & A1 & A2 & ->).
      apply Oo in As. oneof As; cbn in E1, Ey; injection E1 as <-; injection Ey as <-;
        (inversion Fp; subst;
        [exfalso; apply Oi in A1; cbn in A1; intuition discriminate
        |match goal with X : first_pair _ _ _ _ _ |- _ => inversion X; subst end;
         [rewrite (carries_eq _ _ _ _ _ _ _ Hc A1 eq_refl), (carries_eq _ _ _ _ _ _ _ Hc A2 eq_refl); unfold xadd, xsub, xre, xim; cbn; rewrite mean, z0; reflexivity
         | match goal with X : first_pair _ [] _ _ _ |- _ => inversion X end]]).
    Qed.
  End Conv.

  (* the pair that is mixed: sums and differences, rounded, and back *)
  Lemma mixed x y : Rabs (fl ((fl (x + y) + fl (x - y)) / 2) - x) <= gamma u 2 * Rmax (Rabs x) (Rabs y) /\
    Rabs (fl ((fl (x + y) - fl (x - y)) / 2) - y) <= gamma u 2 * Rmax (Rabs x) (Rabs y).
  Proof using B.
    pose proof (u_pos fl u Hr) as Hu. pose proof (fl_err fl u Hr) as Er.
    set (m := Rmax (Rabs x) (Rabs y)). assert (Mx : Rabs x <= m) by apply Rmax_l. assert (My : Rabs y <= m) by apply Rmax_r.
    assert (Two : Rabs (x + y) + Rabs (x - y) <= 2 * m).
    { unfold Rabs in *. repeat destruct Rcase_abs; lra. }
    pose proof (Er (x + y)) as E1. pose proof (Er (x - y)) as E2.
    assert (G : gamma u 2 = 2 * u + u * u) by (unfold gamma; ring). rewrite G.
    set (p := fl (x + y)) in *. set (q := fl (x - y)) in *.
    assert (Both : forall w z, Rabs (w - z) <= u * m -> Rabs z <= m -> Rabs (fl w - z) <= (2 * u + u * u) * m).
    { intros w z D M. pose proof (Er w) as E3.
      assert (Rabs w <= Rabs (w - z) + Rabs z). { replace w with ((w - z) + z) at 1 by ring. apply Rabs_triang. }
      assert (Rabs (fl w - z) <= Rabs (fl w - w) + Rabs (w - z)). { replace (fl w - z) with ((fl w - w) + (w - z)) by ring. apply Rabs_triang. }
      assert (u * Rabs w <= u * (u * m + m)) by (apply Rmult_le_compat_l; lra). lra. }
    assert (E12 : u * Rabs (x + y) + u * Rabs (x - y) <= u * (2 * m)) by (rewrite <- Rmult_plus_distr_l; apply Rmult_le_compat_l; lra).
    split; apply Both; try assumption.
    - replace ((p + q) / 2 - x) with (((p - (x + y)) + (q - (x - y))) / 2) by field. unfold Rdiv. rewrite Rabs_mult, (Rabs_right (/ 2)) by lra.
      pose proof (Rabs_triang (p - (x + y)) (q - (x - y))). lra.
    - replace ((p - q) / 2 - y) with (((p - (x + y)) + - (q - (x - y))) / 2) by field. unfold Rdiv. rewrite Rabs_mult, (Rabs_right (/ 2)) by lra.
      pose proof (Rabs_triang (p - (x + y)) (- (q - (x - y)))) as T. rewrite Rabs_Ropp in T. lra.
  Qed.
  Lemma same x : fl x = x -> fl ((fl x + fl x) / 2) = x.
  Proof using B. intros H. rewrite H. replace ((x + x) / 2) with x by field. exact H. Qed.
  Lemma same_neg x : fl x = x -> fl ((fl x - fl (- x)) / 2) = x.
  Proof using B. intros H. rewrite neg, H. replace ((x - - x) / 2) with x by field. exact H. Qed.

  Section Round.
    Context (is os : sch) (fs di do_ : list nat) (a : ndarr K) (g g' : list nat -> CohModel.cx K).
    Context (Ri : rect (boxed is) di) (Di : distinct (boxed is)) (Ro : rect (boxed os) do_) (Do : distinct (boxed os)) (Ha : nd_shape a = fs ++ di).
    Theorem linear_round : all_of (boxed is) STOKES -> only (boxed is) STOKES -> all_of (boxed os) LINEAR -> only (boxed os) LINEAR ->
      exists c b, convert (K := K) half g a is os = Ok c /\ convert (K := K) half g' c os is = Ok b /\ nd_shape b = nd_shape a /\
      forall f i q uu v, fl uu = uu -> fl v = v -> carries (K := K) a f (boxed is) (stokes_of (K := K) i q uu v) ->
      exists i' q', carries (K := K) b f (boxed is) (stokes_of (K := K) i' q' uu v) /\
        Rabs (i' - i) <= gamma u 2 * Rmax (Rabs i) (Rabs q) /\ Rabs (q' - q) <= gamma u 2 * Rmax (Rabs i) (Rabs q).
    Proof using B Ri Di Ro Do Ha.
      intros A O A' O'.
      destruct (to_linear is os fs di do_ a g Ri Di Ro Do Ha A O') as (c & Ec & Sc & Vc).
      destruct (from_linear os is fs do_ di c g' Ro Do Ri Di Sc A' O) as (b & Eb & Sb & Vb).
      exists c, b. split; [exact Ec|]. split; [exact Eb|]. split; [congruence|]. intros f i q uu v Mu Mv Hc.
      specialize (Vc f i q uu v Hc).
      assert (Hc' : carries (K := K) c f (boxed os) (these LINEAR [(fl (i + q), 0); (fl uu, fl v); (fl uu, fl (- v)); (fl (i - q), 0)])).
      { intros idx s x As Ex. apply (Vc idx s x As). apply O' in As. oneof As; cbn in Ex; cbn; rewrite ?z0; exact Ex. }
      specialize (Vb f _ _ _ _ Hc').
      exists (fl ((fl (i + q) + fl (i - q)) / 2)), (fl ((fl (i + q) - fl (i - q)) / 2)). split; [|apply mixed].
      intros idx s x As Ex. apply (Vb idx s x As). apply O in As. oneof As; cbn in Ex; cbn; rewrite ?z0, ?(same uu Mu), ?(same_neg v Mv); exact Ex.
    Qed.
    Theorem circular_round : all_of (boxed is) STOKES -> only (boxed is) STOKES -> all_of (boxed os) CIRCULAR -> only (boxed os) CIRCULAR ->
      exists c b, convert (K := K) half g a is os = Ok c /\ convert (K := K) half g' c os is = Ok b /\ nd_shape b = nd_shape a /\
      forall f i q uu v, fl q = q -> fl uu = uu -> carries (K := K) a f (boxed is) (stokes_of (K := K) i q uu v) ->
      exists i' v', carries (K := K) b f (boxed is) (stokes_of (K := K) i' q uu v') /\
        Rabs (i' - i) <= gamma u 2 * Rmax (Rabs i) (Rabs v) /\ Rabs (v' - v) <= gamma u 2 * Rmax (Rabs i) (Rabs v).
    Proof using B Ri Di Ro Do Ha.
      intros A O A' O'.
      destruct (to_circular is os fs di do_ a g Ri Di Ro Do Ha A O') as (c & Ec & Sc & Vc).
      destruct (from_circular os is fs do_ di c g' Ro Do Ri Di Sc A' O' O) as (b & Eb & Sb & Vb).
      exists c, b. split; [exact Ec|]. split; [exact Eb|]. split; [congruence|]. intros f i q uu v Mq Mu Hc.
      specialize (Vc f i q uu v Hc).
      assert (Hc' : carries (K := K) c f (boxed os) (these CIRCULAR [(fl (i + v), 0); (fl q, fl uu); (fl q, fl (- uu)); (fl (i - v), 0)])).
      { intros idx s x As Ex. apply (Vc idx s x As). apply O' in As. oneof As; cbn in Ex; cbn; rewrite ?z0; exact Ex. }
      specialize (Vb f _ _ _ _ Hc').
      exists (fl ((fl (i + v) + fl (i - v)) / 2)), (fl ((fl (i + v) - fl (i - v)) / 2)). split; [|apply mixed].
      intros idx s x As Ex. apply (Vb idx s x As). apply O in As. oneof As; cbn in Ex; cbn; rewrite ?z0, ?(same q Mq), ?(same_neg uu Mu); exact Ex.
    Qed.
  End Round.
End Rounded.
