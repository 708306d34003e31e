(* The constants of the machine, bounds in numbers, and the horizon. *)
From Coq Require Import Reals Lra Lia String.
From Flocq Require Import Core.
From Verif Require Import Prelude PreludeFacts CRing CplxR RimeModel RimeSpec DftModel DftSpec RoundModel RoundSpec RavgSpec RavgProofs RavgProofs2 RdftModel RdftSpec RdftProofs RdftProofs2.
From Verif Require RoundProofs4.
Open Scope R_scope.

Lemma stored_constant fl u : roundoff fl u -> constant_error (fl (fl (2 * fl PI) / light)) (gamma u 3).
Proof.
  intros Hu. unfold constant_error. pose proof PI_RGT_0 as P.
  assert (N : near u 3 (fl (fl (2 * fl PI) / light)) (2 * PI / light) (2 * PI / light)).
  { apply (near_fl fl u Hu). unfold Rdiv. apply near_times; [unfold light; lra|]. apply (near_fl fl u Hu). rewrite !(Rmult_comm 2). apply near_times; [lra|].
    apply (near_fl fl u Hu). pose proof (near_self u PI) as N. rewrite Rabs_pos_eq in N by lra. exact N. }
  apply N.
Qed.
Lemma rounded_trig fl u : roundoff fl u -> trig_error (fun x => fl (cos x)) (fun x => fl (sin x)) u.
Proof.
  intros [u0 H] x. split; (eapply Rle_trans; [apply H|]); rewrite <- (Rmult_1_r u) at 2; apply Rmult_le_compat_l; try exact u0; apply Rabs_le;
    [destruct (COS_bound x)|destruct (SIN_bound x)]; lra.
Qed.

(* a field of 0.1, baselines up to 10 km and frequencies up to 2 GHz: nine digits *)
Lemma delay_in_numbers e lm uvw freq s r f : e <= / 10 ^ 9 ->
  Rabs (lm s 0%nat) <= / 10 -> Rabs (lm s 1%nat) <= / 10 -> (forall i, (i < 3)%nat -> Rabs (uvw r i) <= 10000) -> Rabs (freq f) <= 2000000000 ->
  delay_error (/ 2 ^ 53) (gamma (/ 2 ^ 53) 3) e lm uvw freq s r f <= / 10 ^ 8.
Proof.
  intros He Hl Hm Hw Hf. unfold delay_error. set (l := lm s 0%nat) in *. set (m := lm s 1%nat) in *.
  pose proof (Hw 0%nat ltac:(lia)) as H0. pose proof (Hw 1%nat ltac:(lia)) as H1. pose proof (Hw 2%nat ltac:(lia)) as H2.
  set (a := uvw r 0%nat) in *. set (b := uvw r 1%nat) in *. set (w := uvw r 2%nat) in *. set (nu := freq f) in *. clearbody l m a b w nu. clear Hw.
  assert (U : 0 < / 2 ^ 53 <= / 10 ^ 15) by lra. set (u := / 2 ^ 53) in *.
  assert (G : forall n, (n <= 8)%nat -> 0 <= gamma u n <= 2 * INR n * u).
  { intros n Hn. assert (B : INR n <= 8) by (replace 8 with (INR 8) by (cbn; ring); apply le_INR; exact Hn). pose proof (pos_INR n) as B0.
    assert (B1 : INR n * u <= / 2) by nra. split.
    - unfold gamma. assert (1 <= (1 + u) ^ n) by (apply pow_R1_Rle; lra). lra.
    - eapply Rle_trans; [apply RoundProofs4.gamma_bound; lra|]. apply (Rmult_le_reg_r (1 - INR n * u)); [lra|].
      unfold Rdiv. rewrite Rmult_assoc, Rinv_l, Rmult_1_r by lra. assert (0 <= INR n * u) by nra. nra. }
  pose proof (G 2%nat ltac:(lia)) as G2. pose proof (G 3%nat ltac:(lia)) as G3. pose proof (G 8%nat ltac:(lia)) as G8. cbn [INR] in G2, G3, G8. clear G.
  assert (LM : l * l + m * m <= / 50).
  { assert (forall x, Rabs x <= / 10 -> x * x <= / 100) as Q. { intros x Hx. rewrite <- (Rabs_pos_eq (x * x)) by nra. rewrite Rabs_mult. pose proof (Rabs_pos x). nra. }
    pose proof (Q l Hl). pose proof (Q m Hm). lra. }
  set (h := 1 + n1 l m). assert (Hh : / 2 <= h <= 1).
  { unfold h, n1. replace (1 + (sqrt (1 - l * l - m * m) - 1)) with (sqrt (1 - l * l - m * m)) by ring. split.
    - rewrite <- (sqrt_Rsqr (/ 2)) by lra. apply sqrt_le_1_alt. unfold Rsqr. lra.
    - rewrite <- sqrt_1 at 2. apply sqrt_le_1_alt. nra. }
  assert (N1 : Rabs (n1 l m) <= 1 / 2). { replace (n1 l m) with (h - 1) by (unfold h; ring). apply Rabs_le. lra. }
  unfold phase_error. fold h.
  replace ((1 + gamma u 3) * (1 + u) ^ 5) with (1 + gamma u 8) by (unfold gamma; ring).
  replace (1 + gamma u 8 - 1) with (gamma u 8) by ring.
  assert (NE : 0 <= n_error u h <= 32 * u).
  { unfold n_error. assert (I : / h <= 2) by (rewrite <- (Rinv_inv 2); apply Rinv_le_contravar; lra). assert (I0 : 0 < / h) by (apply Rinv_0_lt_compat; lra).
    assert (Q : 0 <= 2 * gamma u 3 / h <= 24 * u). { unfold Rdiv. split; [apply Rmult_le_pos; lra|]. replace (24 * u) with (12 * u * 2) by ring. apply Rmult_le_compat; lra. }
    assert (V : 0 <= u * u <= u * / 1000) by (split; [apply Rmult_le_pos; lra|apply Rmult_le_compat_l; lra]).
    assert (Sq : 1 <= (1 + u) ^ 2 <= 101 / 100) by (rewrite pow2; lra).
    set (g := 2 * gamma u 3 / h) in *. clearbody g. set (q := (1 + u) ^ 2) in *. clearbody q. split; [nra|]. assert (q * g <= 101 / 100 * (24 * u)) by (apply Rmult_le_compat; lra). lra. }
  set (S := Rabs (l * a) + Rabs (m * b) + Rabs (n1 l m * w)). assert (HS : 0 <= S <= 7000).
  { unfold S. rewrite !Rabs_mult. pose proof (Rabs_pos l). pose proof (Rabs_pos m). pose proof (Rabs_pos a). pose proof (Rabs_pos b). pose proof (Rabs_pos w). pose proof (Rabs_pos (n1 l m)).
    assert (Rabs l * Rabs a <= / 10 * 10000) by (apply Rmult_le_compat; lra). assert (Rabs m * Rabs b <= / 10 * 10000) by (apply Rmult_le_compat; lra).
    assert (Rabs (n1 l m) * Rabs w <= 1 / 2 * 10000) by (apply Rmult_le_compat; lra). 
    assert (0 <= Rabs l * Rabs a) by (apply Rmult_le_pos; lra). assert (0 <= Rabs m * Rabs b) by (apply Rmult_le_pos; lra). assert (0 <= Rabs (n1 l m) * Rabs w) by (apply Rmult_le_pos; lra). lra. }
  assert (KN : 0 <= 2 * PI / light * Rabs nu <= 54).
  { pose proof PI_4. pose proof PI_RGT_0. pose proof (Rabs_pos nu). unfold light. split; [apply Rmult_le_pos; [apply Rmult_le_pos; lra|lra]|].
    assert (2 * PI / 299792458 <= 8 / 299792458) by lra. assert (0 <= 2 * PI / 299792458) by lra.
    apply Rle_trans with (8 / 299792458 * 2000000000); [apply Rmult_le_compat; lra|lra]. }
  set (k := 2 * PI / light * Rabs nu) in *. clearbody k S. set (ne := n_error u h) in *. clearbody ne. set (g8 := gamma u 8) in *. clearbody g8.
  pose proof (Rabs_pos w) as W0. set (aw := Rabs w) in *. clearbody aw.
  assert (A1 : 0 <= g8 * S <= 16 * u * 7000) by (split; [apply Rmult_le_pos; lra|apply Rmult_le_compat; lra]).
  assert (A2 : 0 <= ne * aw <= 32 * u * 10000) by (split; [apply Rmult_le_pos; lra|apply Rmult_le_compat; lra]).
  assert (A3 : 0 <= (1 + g8) * (ne * aw) <= 2 * (32 * u * 10000)).
  { split; [apply Rmult_le_pos; lra|]. apply Rmult_le_compat; lra. }
  assert (A4 : k * (g8 * S + (1 + g8) * (ne * aw)) <= 54 * (16 * u * 7000 + 2 * (32 * u * 10000))) by (apply Rmult_le_compat; lra).
  unfold u in A4. lra.
Qed.

(* a direction above the horizon whose n cannot be computed *)
Definition hl : R := F2R (Float radix2 (2 ^ 53 - 2 ^ 26 - 1) (-53)).
Definition hm : R := F2R (Float radix2 (2 ^ 30 + 5) (-43)).
Definition hb : R := F2R (Float radix2 (2 ^ 53 - 2 ^ 27 - 2) (-53)).
Lemma hl_val : hl = 1 - 67108865 / 2 ^ 53.
Proof. unfold hl, F2R. cbn [Fnum Fexp]. change (2 ^ 53 - 2 ^ 26 - 1)%Z with 9007199187632127%Z. change (-53)%Z with (- Z.of_nat 53)%Z. rewrite RoundProofs4.bpow_2. lra. Qed.
Lemma hm_val : hm = 1073741829 / 2 ^ 43.
Proof. unfold hm, F2R. cbn [Fnum Fexp]. change (2 ^ 30 + 5)%Z with 1073741829%Z. change (-43)%Z with (- Z.of_nat 43)%Z. rewrite RoundProofs4.bpow_2. lra. Qed.
Lemma hb_val : hb = 1 - 134217730 / 2 ^ 53.
Proof. unfold hb, F2R. cbn [Fnum Fexp]. change (2 ^ 53 - 2 ^ 27 - 2)%Z with 9007199120523262%Z. change (-53)%Z with (- Z.of_nat 53)%Z. rewrite RoundProofs4.bpow_2. lra. Qed.
Lemma hb_succ : succ radix2 (FLX_exp 53) hb = 1 - 134217729 / 2 ^ 53.
Proof.
  unfold hb. rewrite succ_norm by lia. unfold F2R. cbn [Fnum Fexp]. change (2 ^ 53 - 2 ^ 27 - 2 + 1)%Z with 9007199120523263%Z.
  change (-53)%Z with (- Z.of_nat 53)%Z. rewrite RoundProofs4.bpow_2. lra.
Qed.
Lemma fmt_hb : fmt hb. Proof. apply RoundProofs4.fmt_F2R. reflexivity. Qed.
Lemma horizon : ~ (forall l m, fmt l -> fmt m -> l * l + m * m < 1 -> 0 <= radicand (rounded_ops dbl (fun x => dbl (cos x)) (fun x => dbl (sin x)) (dbl (dbl (2 * dbl PI) / light))) l m).
Proof.
  intros H. specialize (H hl hm). cbn [radicand rounded_ops rsub rmul] in H.
  assert (L : 1 - 134217729 / 2 ^ 53 <= dbl (hl * hl)).
  { rewrite <- hb_succ. apply round_N_ge_midp; [typeclasses eauto|apply generic_format_succ; [typeclasses eauto|exact fmt_hb]|].
    rewrite pred_succ by (try typeclasses eauto; exact fmt_hb). rewrite hb_succ, hb_val, hl_val. lra. }
  set (x1 := F2R (Float radix2 134217729 (-53))).
  assert (X1 : x1 = 134217729 / 2 ^ 53) by (unfold x1, F2R; cbn [Fnum Fexp]; change (-53)%Z with (- Z.of_nat 53)%Z; rewrite RoundProofs4.bpow_2; lra).
  assert (E1 : dbl (1 - dbl (hl * hl)) <= x1).
  { apply Rle_trans with (dbl x1); [apply dbl_mono; rewrite X1; lra|]. rewrite dbl_exact; [lra|]. apply RoundProofs4.fmt_F2R. reflexivity. }
  set (m2 := F2R (Float radix2 1073741834 (-56))).
  assert (M2 : m2 = 1073741834 / 2 ^ 56) by (unfold m2, F2R; cbn [Fnum Fexp]; change (-56)%Z with (- Z.of_nat 56)%Z; rewrite RoundProofs4.bpow_2; lra).
  assert (E2 : m2 <= dbl (hm * hm)).
  { apply Rle_trans with (dbl m2); [rewrite dbl_exact; [lra|apply RoundProofs4.fmt_F2R; reflexivity]|]. apply dbl_mono. rewrite M2, hm_val. lra. }
  set (neg := F2R (Float radix2 (-2) (-56))).
  assert (NG : neg = - 2 / 2 ^ 56) by (unfold neg, F2R; cbn [Fnum Fexp]; change (-56)%Z with (- Z.of_nat 56)%Z; rewrite RoundProofs4.bpow_2; lra).
  assert (E3 : dbl (dbl (1 - dbl (hl * hl)) - dbl (hm * hm)) <= neg).
  { apply Rle_trans with (dbl neg); [apply dbl_mono; rewrite NG; rewrite X1 in E1; rewrite M2 in E2; lra|]. rewrite dbl_exact; [lra|]. apply RoundProofs4.fmt_F2R. reflexivity. }
  assert (C : hl * hl + hm * hm < 1) by (rewrite hl_val, hm_val; lra).
  assert (F1 : fmt hl) by (apply RoundProofs4.fmt_F2R; reflexivity). assert (F2 : fmt hm) by (apply RoundProofs4.fmt_F2R; reflexivity).
  specialize (H F1 F2 C). rewrite NG in E3. lra.
Qed.
