(* C124 in double precision. *)
From Coq Require Import Reals String Lra Lia.
From Flocq Require Import Core.
From Verif Require Import Prelude PreludeFacts CRing CplxR CohModel CohSpec RoundModel RoundSpec RoundProofs4 RhogSpec RhogProofs3 RcohModel RcohSpec RcohProofs.
Open Scope R_scope.

Lemma nearest_double x : nearest 53 (2 * x) = 2 * nearest 53 x.
Proof.
  destruct (Req_dec x 0) as [->|N]; [rewrite !Rmult_0_r; unfold nearest; rewrite round_0; [ring|typeclasses eauto]|].
  assert (M : mag radix2 (2 * x) = (mag radix2 x + 1)%Z :> Z).
  { rewrite Rmult_comm. change 2 with (bpow radix2 1). now apply mag_mult_bpow. }
  unfold nearest, round, scaled_mantissa, cexp, F2R. cbn [Fnum Fexp]. rewrite M. unfold FLX_exp.
  set (e := (mag radix2 x - 53)%Z). replace (mag radix2 x + 1 - 53)%Z with (e + 1)%Z by (unfold e; lia).
  replace (2 * x * bpow radix2 (- (e + 1))) with (x * bpow radix2 (- e)).
  - rewrite bpow_plus. change (bpow radix2 1) with 2. ring.
  - replace (- e)%Z with (- (e + 1) + 1)%Z by lia. rewrite bpow_plus. change (bpow radix2 1) with 2. ring.
Qed.
Lemma double_binary : binary (nearest 53) (/ 2 ^ 53).
Proof.
  split; [exact double_rounding|]. split; [|exact nearest_double].
  intros x. apply round_NE_opp.
Qed.
Lemma fl_plus_tiny : nearest 53 (1 + tiny) = 1.
Proof.
  destruct double_rounding as (_ & _ & Mo & _). apply Rle_antisym.
  - rewrite <- fl_one at 2. apply Mo. rewrite tiny_val, small_val. lra.
  - rewrite <- (fl_exact 1 fmt_1) at 1. apply Mo. rewrite tiny_val. lra.
Qed.
