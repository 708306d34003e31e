(* C122 in double precision. *)
From Coq Require Import Reals Lra Lia Psatz.
From Flocq Require Import Core.
From Verif Require Import Prelude PreludeFacts CRing CplxR DftSpec HogModel HogSpec HogProofs RoundModel RoundSpec RoundProofs RoundProofs4 RhogModel RhogSpec.
Open Scope R_scope.

Lemma double_rounding : rounding (nearest 53) (/ 2 ^ 53).
Proof.
  split; [exact nearest_53|]. split; [lra|]. split.
  - intros x y H. apply round_le; [typeclasses eauto|typeclasses eauto|exact H].
  - intros x. apply fl_exact. apply generic_format_round; typeclasses eauto.
Qed.
Lemma bernoulli u k : 0 <= u <= 1 -> 1 - INR k * u <= (1 - u) ^ k.
Proof.
  intros H. induction k as [|k IH]; [simpl; lra|]. rewrite S_INR. cbn [pow].
  assert ((1 - u) ^ k <= 1) by (pose proof (pow_incr (1 - u) 1 k ltac:(lra)) as Q; rewrite pow1 in Q; exact Q). nra.
Qed.
Lemma double_loss k d a : INR k <= 999999 -> 0 <= a -> cycle_loss (/ 2 ^ 53) k d a <= / 10 ^ 9 * (Rabs d + a).
Proof.
  intros K A. set (u := / 2 ^ 53). assert (Hu : 0 <= u <= / 10 ^ 15 / 9) by (unfold u; lra).
  pose proof (pos_INR k) as K0.
  assert (G : forall m, INR m <= 1000000 -> gamma u m <= / 10 ^ 9 / 8).
  { intros m M. pose proof (pos_INR m). eapply Rle_trans; [apply gamma_bound; [lra|nra]|].
    assert (B : INR m * u <= / 10 ^ 9 / 9) by nra. apply (Rmult_le_reg_r (1 - INR m * u)); [lra|]. unfold Rdiv. rewrite Rmult_assoc, Rinv_l by lra. lra. }
  pose proof (G k ltac:(lra)) as G1. pose proof (G (S k) ltac:(rewrite S_INR; lra)) as G2.
  assert (P : / 2 <= (1 - u) ^ k) by (eapply Rle_trans; [|apply bernoulli; lra]; nra).
  assert (Q : / (1 - u) ^ k <= 2). { rewrite <- (Rinv_inv 2). apply Rinv_le_contravar; lra. }
  assert (Q0 : 0 < / (1 - u) ^ k) by (apply Rinv_0_lt_compat; lra).
  assert (P0 : 0 <= gamma u k) by (unfold gamma; pose proof (pow_R1_Rle (1 + u) k ltac:(lra)); lra).
  assert (P1 : 0 <= gamma u (S k)) by (unfold gamma; pose proof (pow_R1_Rle (1 + u) (S k) ltac:(lra)); lra).
  unfold cycle_loss, Rdiv. pose proof (Rabs_pos d).
  assert ((gamma u k + gamma u (S k)) * / (1 - u) ^ k <= / 10 ^ 9).
  { apply Rle_trans with (/ 10 ^ 9 / 4 * 2); [|lra]. apply Rmult_le_compat; lra. }
  rewrite Rmult_plus_distr_l. apply Rplus_le_compat; apply Rmult_le_compat_r; lra.
Qed.

(* a component that is lost in the residual *)
Definition tiny : R := F2R (Float radix2 1 (-60)).
Lemma tiny_val : tiny = / 2 ^ 60.
Proof. unfold tiny, F2R. cbn [Fnum Fexp]. change (-60)%Z with (- Z.of_nat 60)%Z. rewrite bpow_2. lra. Qed.
Lemma fmt_tiny : generic_format radix2 (FLX_exp 53) tiny.
Proof. now apply fmt_F2R. Qed.
Lemma fl_less : nearest 53 (1 - tiny) = 1.
Proof.
  apply Rle_antisym.
  - apply round_le_generic; [typeclasses eauto|typeclasses eauto|exact fmt_1|]. rewrite tiny_val. lra.
  - apply round_N_ge_midp; [typeclasses eauto|exact fmt_1|]. replace (pred radix2 (FLX_exp 53) 1) with (1 - / 2 ^ 53).
    + rewrite tiny_val. lra.
    + change 1 with (bpow radix2 0) at 2. rewrite pred_bpow. change (FLX_exp 53 0) with (- Z.of_nat 53)%Z. rewrite bpow_2. reflexivity.
Qed.
Lemma lost : exists C R, rhogbom_clean (nearest 53) 1 1 (fun _ _ => 1) 2 2 (fun _ _ => 1) tiny (Some 0) (Some 0%Z) = Ok (C, R) /\ C 0%nat 0%nat = tiny /\ R 0%nat 0%nat = 1.
Proof.
  unfold rhogbom_clean. cbn [Nat.eqb negb orb Nat.mul Nat.add].
  destruct (find_peak_spec 1 1 (fun _ _ => 1) ltac:(lia) ltac:(lia)) as (p & q & pm & qm & v & E & [(x & y & _ & <-) _] & L & _). rewrite E. cbn [bind].
  destruct L as ([Hp Hq] & _). assert (p = 0%nat) as -> by lia. assert (q = 0%nat) as -> by lia.
  change (Z.to_nat (0 + 1)) with 1%nat. cbn [rclean_loop]. rewrite Rmult_0_l, fl_0. destruct (Rlt_dec 0 (Rabs 1)) as [_|N]; [|exfalso; apply N; rewrite Rabs_R1; lra].
  set (R1 := rupdate_residual (nearest 53) (fun _ _ => 1) 1 tiny 0 0 1 (fun _ _ => 1)).
  destruct (find_peak_spec 1 1 R1 ltac:(lia) ltac:(lia)) as (p & q & pm' & qm' & v & E1 & _). rewrite E1. cbn [bind].
  do 2 eexists. split; [reflexivity|]. split.
  - unfold rbuild_cleanmap. rewrite upd2_eq, Rmult_1_l, Rplus_0_l, !(fl_exact tiny fmt_tiny). reflexivity.
  - unfold R1, rupdate_residual. rewrite !Rmult_1_r, !(fl_exact tiny fmt_tiny). exact fl_less.
Qed.
