(* C119: phase-only calibration in one direction converges *)
From Coq Require Import Reals Lra Lia.
From Verif Require Import Prelude CRing CField CplxR CplxF DftSpec NumpyModel AvgModel PredictModel PredictSpec CalModel CalSpec RimeSpec
  Cal2Model Cal2Spec PhaseSpec PhaseProofs PhaseProofs2 PhaseProofs3.
Open Scope R_scope.

(* data and model multiplied by the square root of the weights *)
Notation Dw vis weight := (fun r f c => cmul (v_at vis r f c 0%nat : RC) (ofR (sqrt (weight r f c)))) (only parsing).
Notation Mw m weight := (fun r f s c => cmul (m_at m r f s c 0%nat : RC) (ofR (sqrt (weight r f c)))) (only parsing).

(* C119.  One direction, initial gains that are pure phases, data at most as large as the model on the unflagged rows, and J^H J
   at least Jmin > 0 for every gain.  Then each iteration except the last lowers the sum of the squared residuals by
   2 Jmin tol^2 or more and the last does not raise it.  So once maxiter exceeds that many drops from the initial value,
   the solver stops before maxiter, at gains whose gradient re(J^H r) is at most 2 tol J^H J. *)
Theorem C119_converges : forall n nant ncorr nchan tbi tbc ant1 ant2 (g : gain_arr RCF) (vis : vis_arr RCF) (m : model_arr RCF) flag weight tmin use Jmin tol maxiter,
  solver_inputs n nant ncorr nchan 1 tbi tbc ant1 ant2 g vis m flag tmin use ->
  data_within_model n nchan ncorr tbi tmin tbc use (fun r f s c => m_at m r f s c 0%nat) (fun r f c => v_at vis r f c 0%nat) ->
  0 < Jmin -> (forall t a f c, gain_in n nant nchan 1 ncorr t a f 0 c -> Jmin <= JHJ tbi tmin tbc ant1 ant2 use (Mw m weight) (j_at g) t a f 0%nat c) ->
  0 < tol < 1 -> (0 < maxiter)%nat ->
  let cost G := misfit n nchan ncorr tbi tmin tbc ant1 ant2 1 use (Mw m weight) (Dw vis weight) G in
  exists g' jhj jhr k,
    snd (gauss_newton n nant ncorr tbi tbc ant1 ant2 g vis flag m weight tol maxiter) = Ok (g', jhj, jhr, k) /\
    (1 <= k <= maxiter)%nat /\ pure_phases n nchan 1 ncorr (j_at g') /\
    cost (j_at g') + INR (k - 1) * (2 * Jmin * (tol * tol)) <= cost (j_at g) /\
    (cost (j_at g) < INR (maxiter - 1) * (2 * Jmin * (tol * tol)) ->
      (k < maxiter)%nat /\
      forall t a f c, gain_in n nant nchan 1 ncorr t a f 0 c -> Rabs (re (jhr t a f 0%nat c 0%nat)) <= 2 * tol * jhj t a f 0%nat c 0%nat).
Proof. exact phase_converges. Qed.
(* without the bound on the data one iteration can make the fit worse: model 1, data 5 i, gains 1 *)
Theorem C119_large_data_refuted : ~ forall n nant ncorr nchan tbi tbc ant1 ant2 (g : gain_arr RCF) (vis : vis_arr RCF) (m : model_arr RCF) flag weight tmin use tol maxiter g' jhj jhr k,
  solver_inputs n nant ncorr nchan 1 tbi tbc ant1 ant2 g vis m flag tmin use -> 0 < tol < 1 ->
  snd (gauss_newton n nant ncorr tbi tbc ant1 ant2 g vis flag m weight tol maxiter) = Ok (g', jhj, jhr, k) ->
  misfit n nchan ncorr tbi tmin tbc ant1 ant2 1 use (Mw m weight) (Dw vis weight) (j_at g') <=
  misfit n nchan ncorr tbi tmin tbc ant1 ant2 1 use (Mw m weight) (Dw vis weight) (j_at g).
Proof.
  intros H. destruct (one_ok 1 1 5) as (g' & jhj & jhr & k & E).
  specialize (H _ _ _ _ _ _ _ _ _ _ _ _ (fun _ _ _ => 1) _ _ (/ 2) 1%nat g' jhj jhr k (one_inputs 1 1 5) ltac:(lra) E). generalize (one_worse 1 1 5 g' jhj jhr k ltac:(lra) ltac:(lra) ltac:(lia) E). lra.
Qed.
(* and with several directions even data that are exactly the model seen through pure phases can be fitted worse than before *)
Theorem C119_directions_refuted : ~ forall n nant ncorr nchan ndir tbi tbc ant1 ant2 (g : gain_arr RCF) (vis : vis_arr RCF) (m : model_arr RCF) flag weight tmin use tol maxiter truth g' jhj jhr k,
  solver_inputs n nant ncorr nchan ndir tbi tbc ant1 ant2 g vis m flag tmin use -> 0 < tol < 1 ->
  pure_phases n nchan ndir ncorr truth ->
  (forall t r f c, (t < n)%nat -> in_bin tbi tmin tbc t r -> (f < nchan)%nat -> (c < ncorr)%nat ->
     v_at vis r f c 0%nat = csum ndir (fun s => seen ant1 ant2 (fun r f s c => m_at m r f s c 0%nat) truth t r f s c)) ->
  snd (gauss_newton n nant ncorr tbi tbc ant1 ant2 g vis flag m weight tol maxiter) = Ok (g', jhj, jhr, k) ->
  misfit n nchan ncorr tbi tmin tbc ant1 ant2 ndir use (Mw m weight) (Dw vis weight) (j_at g') <=
  misfit n nchan ncorr tbi tmin tbc ant1 ant2 ndir use (Mw m weight) (Dw vis weight) (j_at g).
Proof.
  intros H. destruct (one_ok 5 1 5) as (g' & jhj & jhr & k & E).
  specialize (H 1 2 1 1 5 (fun _ => 0%Z) (fun _ => 1) (fun _ => 0) (fun _ => 1) (one_gains 5) (one_vis 5) (one_model 5 1) (fun _ _ _ _ => false) (fun _ _ _ => 1%R) 0%Z (fun _ _ => true) (/ 2)%R 1
      (fun _ a _ _ _ _ => match a with O => ((0, 1)%R : RC) | _ => c1 end) g' jhj jhr k (one_inputs 5 1 5) ltac:(lra))%nat.
  generalize (one_worse 5 1 5 g' jhj jhr k ltac:(lra) ltac:(lra) ltac:(lia) E). intros W.
  apply Rlt_not_le in W. apply W. apply H; [| |exact E].
  - intros t a f s c _ _ _ _. unfold norm2, re, im. destruct a; cbn; ring.
  - intros t r f c _ _ _ _. cbn. f_equal; ring.
Qed.
(* the hypotheses of C119_converges: one baseline, model 1, data i, J^H J = 1 and initial cost 2 < 5 * (2 * 1 * 1/4) *)
Example C119_inputs : solver_inputs 1 2 1 1 1 (fun _ => 0%Z) (fun _ => 1%nat) (fun _ => 0%nat) (fun _ => 1%nat) (one_gains 1) (one_vis 1) (one_model 1 1) (fun _ _ _ _ => false) 0%Z (fun _ _ => true).
Proof. apply one_inputs. Qed.
Example C119_case : exists g' jhj jhr k,
  snd (gauss_newton 1 2 1 (fun _ => 0%Z) (fun _ => 1%nat) (fun _ => 0%nat) (fun _ => 1%nat) (one_gains 1) (one_vis 1) (fun _ _ _ _ => false) (one_model 1 1) (fun _ _ _ => 1) (/ 2) 6) = Ok (g', jhj, jhr, k) /\ (k < 6)%nat.
Proof.
  destruct (C119_converges 1 2 1 1 (fun _ => 0%Z) (fun _ => 1%nat) (fun _ => 0%nat) (fun _ => 1%nat) (one_gains 1) (one_vis 1) (one_model 1 1) (fun _ _ _ _ => false) (fun _ _ _ => 1) 0%Z (fun _ _ => true) 1 (/ 2) 6)
    as (g' & jhj & jhr & k & E & _ & _ & _ & H).
  - apply one_inputs.
  - intros t r f c _ _ _ _ _. unfold norm2, re, im. cbn. lra.
  - lra.
  - intros t a f c (Ht & Ha & Hf & _ & Hc). assert (a = 0 \/ a = 1)%nat as [-> | ->] by lia; unfold JHJ, bin_sum, seen, norm2, re, im; cbn; rewrite sqrt_1; lra.
  - lra.
  - lia.
  - exists g', jhj, jhr, k. split; [exact E|]. apply H. unfold misfit, chi2, bin_sum, residuals, seen, norm2, re, im, rsum. cbn. rewrite sqrt_1. lra.
Qed.

Print Assumptions C119_converges.
Print Assumptions C119_large_data_refuted.
Print Assumptions C119_directions_refuted.
