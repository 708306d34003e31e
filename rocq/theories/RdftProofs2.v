From Coq Require Import Reals Lra Lia String Ranalysis.
From Verif Require Import Prelude PreludeFacts CRing CplxR LoopFacts RimeModel RimeSpec DftModel DftSpec DftProofs RoundModel RoundSpec RavgSpec RavgProofs RdftModel RdftSpec RdftProofs.
Open Scope R_scope.

Lemma sqrt_near a b : 0 < b -> Rabs (sqrt a - sqrt b) <= Rabs (a - b) / sqrt b.
Proof.
  intros Hb. pose proof (sqrt_lt_R0 b Hb) as Sb. apply (Rmult_le_reg_r (sqrt b)); [exact Sb|].
  unfold Rdiv. rewrite Rmult_assoc, Rinv_l, Rmult_1_r by lra.
  pose proof (sqrt_sqrt b (Rlt_le _ _ Hb)) as E. destruct (Rle_lt_dec 0 a) as [Ha|Ha].
  - pose proof (sqrt_sqrt a Ha) as E'. pose proof (sqrt_pos a) as Sa.
    replace (a - b) with ((sqrt a - sqrt b) * (sqrt a + sqrt b)) by (ring_simplify; rewrite !pow2, E, E'; ring).
    rewrite Rabs_mult, (Rabs_pos_eq (sqrt a + sqrt b)) by lra. apply Rmult_le_compat_l; [apply Rabs_pos|lra].
  - rewrite (sqrt_neg_0 a) by lra. rewrite Rminus_0_l, Rabs_Ropp, (Rabs_pos_eq (sqrt b)), E by lra. rewrite Rabs_left; lra.
Qed.
Lemma cos_near x y : Rabs (cos x - cos y) <= Rabs (x - y).
Proof.
  destruct (Req_dec x y) as [->|Ne]; [rewrite !Rminus_diag_eq, Rabs_R0 by reflexivity; lra|].
  assert (B : forall a b, a < b -> Rabs (cos b - cos a) <= b - a).
  { intros a b H. destruct (MVT_cor2 cos (fun t => - sin t) a b H) as (t & Ht & _); [intros; apply derivable_pt_lim_cos|].
    rewrite Ht, Rabs_mult, (Rabs_pos_eq (b - a)), Rabs_Ropp by lra. assert (Rabs (sin t) <= 1); [|nra].
    apply Rabs_le. destruct (SIN_bound t). lra. }
  destruct (Rtotal_order x y) as [L|[E|L]]; [|contradiction|].
  - rewrite Rabs_minus_sym, (Rabs_left (x - y)) by lra. pose proof (B x y L). lra.
  - rewrite (Rabs_pos_eq (x - y)) by lra. apply B. exact L.
Qed.
Lemma sin_near x y : Rabs (sin x - sin y) <= Rabs (x - y).
Proof.
  rewrite <- (cos_shift x), <- (cos_shift y). eapply Rle_trans; [apply cos_near|]. replace (PI / 2 - x - (PI / 2 - y)) with (- (x - y)) by ring.
  rewrite Rabs_Ropp. lra.
Qed.

Section Errors.
  Context (fl : R -> R) (u : R) (Hu : roundoff fl u) (fcos fsin : R -> R) (e : R) (He : trig_error fcos fsin e) (c uc : R) (Hc : constant_error c uc).
  Let A := rounded_ops fl fcos fsin c.
  Let k0 := 2 * PI / light.
  Lemma k0_pos : 0 < k0.
  Proof using. unfold k0, light. apply Rdiv_lt_0_compat; [pose proof PI_RGT_0; lra|lra]. Qed.
  Lemma uc_pos : 0 <= uc.
  Proof using Hc. pose proof k0_pos as K. unfold constant_error in Hc. fold k0 in Hc. pose proof (Rabs_pos (c - k0)). nra. Qed.

  Lemma near_mul k x' x m d : near u k x' x m -> near u k (x' * d) (x * d) (m * Rabs d).
  Proof using.
    intros [P Q]. pose proof (Rabs_pos d). split.
    - replace (x' * d - x * d) with ((x' - x) * d) by ring. rewrite Rabs_mult. nra.
    - rewrite Rabs_mult. nra.
  Qed.
  Lemma radicand_near l m : near u 3 (radicand A l m) (1 - l * l - m * m) (1 + l * l + m * m).
  Proof using Hu.
    assert (S : forall x, near u 1 (fl (x * x)) (x * x) (x * x)).
    { intros x. apply (near_fl fl u Hu). pose proof (near_self u (x * x)) as N. rewrite Rabs_pos_eq in N by nra. exact N. }
    assert (O : near u 1 1 1 1). { apply (near_mono fl u Hu 0 1); [lia|]. pose proof (near_self u 1) as N. now rewrite Rabs_R1 in N. }
    unfold radicand. cbn [A rounded_ops rsub rmul]. apply (near_fl fl u Hu). apply near_minus; [|apply (near_mono fl u Hu 1 2); [lia|apply S]].
    apply (near_fl fl u Hu). apply near_minus; [exact O|apply S].
  Qed.
  Lemma radicand_positive l m : l * l + m * m < 1 -> 2 * gamma u 3 < 1 - l * l - m * m -> 0 < radicand A l m.
  Proof using Hu.
    intros H G. destruct (radicand_near l m) as [N _]. pose proof (gamma_pos fl u Hu 3).
    assert (gamma u 3 * (1 + l * l + m * m) <= gamma u 3 * 2) by (apply Rmult_le_compat_l; lra).
    pose proof (Rle_abs (- (radicand A l m - (1 - l * l - m * m)))) as B. rewrite Rabs_Ropp in B. lra.
  Qed.
  Lemma n_near l m : l * l + m * m < 1 -> Rabs (n_minus_1 A l m - n1 l m) <= n_error u (1 + n1 l m).
  Proof using Hu.
    intros H. set (X := 1 - l * l - m * m). assert (HX : 0 < X) by (unfold X; lra). set (h := sqrt X).
    assert (Hh : 0 < h) by (apply sqrt_lt_R0; exact HX). assert (h1 : h <= 1). { unfold h. rewrite <- sqrt_1. apply sqrt_le_1_alt. unfold X. nra. }
    unfold n1. fold X. fold h. replace (1 + (h - 1)) with h by ring. unfold n_error.
    destruct (radicand_near l m) as [N _]. fold X in N. pose proof (gamma_pos fl u Hu 3) as G.
    assert (N' : Rabs (radicand A l m - X) <= 2 * gamma u 3).
    { eapply Rle_trans; [exact N|]. assert (1 + l * l + m * m <= 2) by lra. nra. }
    pose proof (sqrt_near (radicand A l m) X HX) as S. fold h in S.
    set (g := 2 * gamma u 3 / h). assert (S' : Rabs (sqrt (radicand A l m) - h) <= g).
    { eapply Rle_trans; [exact S|]. unfold g, Rdiv. apply Rmult_le_compat_r; [left; now apply Rinv_0_lt_compat|exact N']. }
    assert (g0 : 0 <= g). { eapply Rle_trans; [apply Rabs_pos|exact S']. }
    unfold n_minus_1. cbn [A rounded_ops rsub rsqrt]. fold A. set (q := sqrt (radicand A l m)) in *. clearbody q g h X. clear N N' S.
    destruct Hu as [u0 F]. pose proof (F q) as F1.
    assert (Q : Rabs q <= h + g). { replace q with ((q - h) + h) by ring. eapply Rle_trans; [apply Rabs_triang|]. rewrite (Rabs_pos_eq h) by lra. lra. }
    assert (E1 : Rabs (fl q - h) <= u * (h + g) + g).
    { replace (fl q - h) with ((fl q - q) + (q - h)) by ring. eapply Rle_trans; [apply Rabs_triang|]. apply Rplus_le_compat; [|exact S'].
      eapply Rle_trans; [exact F1|]. apply Rmult_le_compat_l; lra. }
    pose proof (F (fl q - 1)) as F2.
    assert (Q2 : Rabs (fl q - 1) <= 1 - h + (u * (h + g) + g)).
    { replace (fl q - 1) with ((fl q - h) + - (1 - h)) by ring. eapply Rle_trans; [apply Rabs_triang|]. rewrite Rabs_Ropp, (Rabs_pos_eq (1 - h)) by lra. lra. }
    assert (E2 : Rabs (fl (fl q - 1) - (h - 1)) <= u * (1 - h + (u * (h + g) + g)) + (u * (h + g) + g)).
    { replace (fl (fl q - 1) - (h - 1)) with ((fl (fl q - 1) - (fl q - 1)) + (fl q - h)) by ring. eapply Rle_trans; [apply Rabs_triang|].
      apply Rplus_le_compat; [|exact E1]. eapply Rle_trans; [exact F2|]. apply Rmult_le_compat_l; lra. }
    eapply Rle_trans; [exact E2|]. unfold gamma. cbn [pow].
    assert (u * u * h <= u * u) by (rewrite <- (Rmult_1_r (u * u)) at 2; apply Rmult_le_compat_l; nra).
    nra.
  Qed.
  Lemma phase_near sgn l m u' v w nu : sgn = 1 \/ sgn = -1 -> l * l + m * m < 1 ->
    Rabs (phase_in A (sgn * c) l m (n_minus_1 A l m) u' v w nu - sgn * delay l m u' v w nu) <= phase_error u uc l m u' v w nu.
  Proof using Hu Hc.
    intros Hs H. set (n' := n_minus_1 A l m). set (ne := n_error u (1 + n1 l m)).
    assert (HN : Rabs (n' - n1 l m) <= ne) by (apply n_near; exact H).
    assert (S : forall x, near u 1 (fl x) x (Rabs x)) by (intros x; apply (near_fl fl u Hu), near_self).
    pose proof uc_pos as Uc. pose proof k0_pos as K0. unfold constant_error in Hc. fold k0 in Hc.
    assert (N : near u 5 (phase_in A (sgn * c) l m n' u' v w nu) ((l * u' + m * v + n' * w) * (sgn * c) * nu)
                  ((Rabs (l * u') + Rabs (m * v) + Rabs (n' * w)) * Rabs (sgn * c) * Rabs nu)).
    { unfold phase_in. cbn [A rounded_ops rmul radd]. apply (near_fl fl u Hu), near_mul, (near_fl fl u Hu). rewrite (Rmult_comm (sgn * c) (fl _)).
      apply near_mul, (near_fl fl u Hu), near_plus; [|apply (near_mono fl u Hu 1 2); [lia|apply S]].
      apply (near_fl fl u Hu), near_plus; apply S. }
    destruct N as [N _]. set (p := phase_in A (sgn * c) l m n' u' v w nu) in *. clearbody p n'.
    assert (Sg : Rabs sgn = 1) by (destruct Hs as [->| ->]; [apply Rabs_R1|rewrite Rabs_left; lra]).
    rewrite (Rabs_mult sgn c), Sg, Rmult_1_l in N.
    set (S0 := Rabs (l * u') + Rabs (m * v) + Rabs (n1 l m * w)).
    assert (W : Rabs (n' * w) <= Rabs (n1 l m * w) + ne * Rabs w).
    { replace (n' * w) with (n1 l m * w + (n' - n1 l m) * w) by ring. eapply Rle_trans; [apply Rabs_triang|]. rewrite (Rabs_mult (n' - n1 l m)).
      apply Rplus_le_compat_l. apply Rmult_le_compat_r; [apply Rabs_pos|exact HN]. }
    assert (Cb : Rabs c <= (1 + uc) * k0).
    { replace c with ((c - k0) + k0) by ring. eapply Rle_trans; [apply Rabs_triang|]. rewrite (Rabs_pos_eq k0) by lra. lra. }
    pose proof (Rabs_pos nu) as Hn. pose proof (Rabs_pos w) as Hw. pose proof (Rabs_pos c) as Hcp.
    assert (ne0 : 0 <= ne) by (eapply Rle_trans; [apply Rabs_pos|exact HN]).
    assert (S00 : 0 <= S0) by (unfold S0; pose proof (Rabs_pos (l * u')); pose proof (Rabs_pos (m * v)); pose proof (Rabs_pos (n1 l m * w)); lra).
    (* the exact sum with the computed n *)
    assert (D : Rabs ((l * u' + m * v + n' * w) * (sgn * c) * nu - sgn * delay l m u' v w nu) <= (uc * k0 * S0 + (1 + uc) * k0 * (ne * Rabs w)) * Rabs nu).
    { replace ((l * u' + m * v + n' * w) * (sgn * c) * nu - sgn * delay l m u' v w nu)
        with (sgn * (((c - k0) * (l * u' + m * v + n1 l m * w) + c * ((n' - n1 l m) * w)) * nu)).
      2: { unfold delay, k0. field. unfold light. lra. }
      rewrite Rabs_mult, Sg, Rmult_1_l, Rabs_mult. apply Rmult_le_compat_r; [exact Hn|]. eapply Rle_trans; [apply Rabs_triang|]. rewrite !Rabs_mult.
      apply Rplus_le_compat.
      - apply Rmult_le_compat; try apply Rabs_pos; [exact Hc|]. unfold S0. eapply Rle_trans; [apply Rabs_triang|]. apply Rplus_le_compat_r, Rabs_triang.
      - apply Rmult_le_compat; try apply Rabs_pos; [apply Rmult_le_pos; apply Rabs_pos|exact Cb|]. apply Rmult_le_compat_r; [exact Hw|exact HN]. }
    assert (G5 : 0 <= gamma u 5) by (apply (gamma_pos fl); exact Hu).
    assert (N' : Rabs (p - (l * u' + m * v + n' * w) * (sgn * c) * nu) <= gamma u 5 * ((S0 + ne * Rabs w) * ((1 + uc) * k0) * Rabs nu)).
    { eapply Rle_trans; [exact N|]. apply Rmult_le_compat_l; [exact G5|]. apply Rmult_le_compat_r; [exact Hn|].
      assert (0 <= Rabs (l * u') + Rabs (m * v) + Rabs (n' * w)) by (pose proof (Rabs_pos (l * u')); pose proof (Rabs_pos (m * v)); pose proof (Rabs_pos (n' * w)); lra).
      apply Rmult_le_compat; [assumption|apply Rabs_pos|unfold S0; lra|exact Cb]. }
    replace (p - sgn * delay l m u' v w nu) with ((p - (l * u' + m * v + n' * w) * (sgn * c) * nu) + ((l * u' + m * v + n' * w) * (sgn * c) * nu - sgn * delay l m u' v w nu)) by ring.
    eapply Rle_trans; [apply Rabs_triang|]. eapply Rle_trans; [apply Rplus_le_compat; [exact N'|exact D]|].
    unfold phase_error. fold k0 S0 ne. unfold gamma. right. ring.
  Qed.
  Lemma delay_near sgn lm uvw freq s r f : sgn = 1 \/ sgn = -1 -> above_horizon lm s ->
    Rabs (fcos (ph A (sgn * c) lm uvw freq s r f) - cos (sgn * src_delay lm uvw freq s r f)) <= delay_error u uc e lm uvw freq s r f /\
    Rabs (fsin (ph A (sgn * c) lm uvw freq s r f) - sin (sgn * src_delay lm uvw freq s r f)) <= delay_error u uc e lm uvw freq s r f.
  Proof using Hu Hc He.
    intros Hs H. pose proof (phase_near sgn (lm s 0%nat) (lm s 1%nat) (uvw r 0%nat) (uvw r 1%nat) (uvw r 2%nat) (freq f) Hs H) as P.
    unfold ph, src_delay, delay_error. set (p := phase_in _ _ _ _ _ _ _ _ _) in *. set (q := sgn * delay _ _ _ _ _ _) in *.
    destruct (He p) as [C1 C2]. split.
    - replace (fcos p - cos q) with ((fcos p - cos p) + (cos p - cos q)) by ring. eapply Rle_trans; [apply Rabs_triang|]. apply Rplus_le_compat; [exact C1|].
      eapply Rle_trans; [apply cos_near|exact P].
    - replace (fsin p - sin q) with ((fsin p - sin p) + (sin p - sin q)) by ring. eapply Rle_trans; [apply Rabs_triang|]. apply Rplus_le_compat; [exact C2|].
      eapply Rle_trans; [apply sin_near|exact P].
  Qed.
End Errors.
