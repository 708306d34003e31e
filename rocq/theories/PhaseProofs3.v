From Coq Require Import Reals Lra Lia Psatz Ring.
From Verif Require Import Prelude CRing CField CplxR CplxF DftSpec DftProofs CleanProofs RdftProofs3 NumpyModel AvgModel PredictModel PredictSpec CalModel CalSpec RimeSpec
  Cal2Model Cal2Spec Cal2Proofs Cal2Proofs2 Cal2Proofs3 PhaseSpec PhaseProofs PhaseProofs2.
Open Scope R_scope.

Lemma weighted_norm (x : RC) w : norm2 (cmul x (ofR (sqrt w))) = norm2 x * (sqrt w * sqrt w).
Proof. destruct x. unfold norm2, re, im, ofR. cbn. ring. Qed.
Lemma weighted_within n nchan ncorr tbi tmin tbc use (vis : vis_arr RCF) (m : model_arr RCF) (weight : arr3 R) :
  data_within_model n nchan ncorr tbi tmin tbc use (fun r f s c => m_at m r f s c 0%nat) (fun r f c => v_at vis r f c 0%nat) ->
  data_within_model n nchan ncorr tbi tmin tbc use (Mw m weight) (Dw vis weight).
Proof. intros H t r f c Ht Hr Hf Hc Hu. rewrite !weighted_norm. apply Rmult_le_compat_r; [apply Rle_0_sqr|]. now apply (H t). Qed.

(* one baseline, gains 1, model mm in each of N directions, data dd i *)
Definition one_vis (dd : R) : vis_arr RCF := {| v_ndim := 3; v_row := 1; v_chan := 1; v_corr := 1; v_at := fun _ _ _ _ => ((0, dd)%R : RCF) |}.
Definition one_model (N : nat) (mm : R) : model_arr RCF := {| m_ndim := 4; m_row := 1; m_chan := 1; m_dir := N; m_corr := 1; m_at := fun _ _ _ _ _ => ((mm, 0)%R : RCF) |}.
Definition one_gains (N : nat) : gain_arr RCF := {| j_ndim := 5; j_tim := 1; j_chan := 1; j_dir := N; j_at := fun _ _ _ _ _ _ => (c1 : RCF) |}.
Section Bad.
  Context (N : nat) (mm dd : R).
  Hypothesis Hm : 0 < mm.
  Let M := fun (_ _ _ _ : nat) => ((mm, 0) : RC).
  Let D := fun (_ _ _ : nat) => ((0, dd) : RC).
  Let g1 : garr RC := fun _ _ _ _ _ _ => c1.
  Lemma csum_const (x : RC) : csum N (fun _ => x) = (INR N * fst x, INR N * snd x).
  Proof.
    induction N as [|k IH]; [cbn; f_equal; ring|]. cbn [csum]. rewrite IH, S_INR. destruct x. cbn. f_equal; ring.
  Qed.
  Lemma bad_delta a s : gn_delta (fun _ => 0%Z) 0%Z (fun _ => 1%nat) (fun _ => 0%nat) (fun _ => 1%nat) N (fun _ _ => true) M D
    (JHJ (fun _ => 0%Z) 0%Z (fun _ => 1%nat) (fun _ => 0%nat) (fun _ => 1%nat) (fun _ _ => true) M g1) g1 0 a 0 s 0 =
    match a with O => dd / mm / 2 | 1%nat => - (dd / mm / 2) | _ => gn_delta (fun _ => 0%Z) 0%Z (fun _ => 1%nat) (fun _ => 0%nat) (fun _ => 1%nat) N (fun _ _ => true) M D
    (JHJ (fun _ => 0%Z) 0%Z (fun _ => 1%nat) (fun _ => 0%nat) (fun _ => 1%nat) (fun _ _ => true) M g1) g1 0 a 0 s 0 end.
  Proof.
    destruct a as [|[|a]]; [| |reflexivity]; unfold gn_delta, JHR, JHJ, bin_sum, residuals; cbn [csum Nat.eqb];
      change (seen (fun _ => 0%nat) (fun _ => 1%nat) M g1 0) with (fun (_ _ _ _ : nat) => cmul (cmul (c1 : RC) (mm, 0)) (cconj (c1 : RC)));
      cbv beta; rewrite csum_const; unfold D, norm2, re, im, im_unit; cbn; field; lra.
  Qed.
  Lemma bad_worse G : (forall a s, (s < N)%nat -> G 0%nat a 0%nat s 0%nat 0%nat = cis (angle c1 + gn_delta (fun _ => 0%Z) 0%Z (fun _ => 1%nat) (fun _ => 0%nat) (fun _ => 1%nat) N (fun _ _ => true) M D
    (JHJ (fun _ => 0%Z) 0%Z (fun _ => 1%nat) (fun _ => 0%nat) (fun _ => 1%nat) (fun _ _ => true) M g1) g1 0 a 0 s 0)) ->
    dd = 5 * mm -> (0 < N)%nat ->
    misfit 1 1 1 (fun _ => 0%Z) 0%Z (fun _ => 1%nat) (fun _ => 0%nat) (fun _ => 1%nat) N (fun _ _ => true) M D g1 <
    misfit 1 1 1 (fun _ => 0%Z) 0%Z (fun _ => 1%nat) (fun _ => 0%nat) (fun _ => 1%nat) N (fun _ _ => true) M D G.
  Proof.
    intros HG Hd HN.
    assert (N1 : norm2 (c1 : RC) = 1) by (unfold norm2, re, im; cbn; ring).
    assert (HGa : forall a s, (s < N)%nat -> (a < 2)%nat -> G 0%nat a 0%nat s 0%nat 0%nat = cis (match a with O => 5 / 2 | _ => - (5 / 2) end)).
    { intros a s Hs Ha. rewrite HG by auto. rewrite cis_add, (angle_unit c1 N1), bad_delta.
      assert (E : forall z : RC, cmul c1 z = z) by (intros [x y]; cbn; f_equal; ring). rewrite E.
      destruct a as [|[|a]]; [| |lia]; f_equal; rewrite Hd; field; lra. }
    unfold misfit, chi2, bin_sum, rsum. cbn [csum]. unfold residuals.
    rewrite (csum_ext (K := RC) N (fun s => seen (fun _ => 0%nat) (fun _ => 1%nat) M G 0 _ 0 s 0) (fun _ => cmul ((mm, 0) : RC) (cis 5))).
    2: { intros s Hs. unfold seen. rewrite !HGa by (auto; lia). cbv iota. rewrite <- cis_opp. replace (cis 5) with (cmul (cis (5 / 2)) (cis (- - (5 / 2)))).
         - generalize (cis (5 / 2)) (cis (- - (5 / 2))). intros [x y] [u v]. unfold M. cbn. f_equal; ring.
         - rewrite <- cis_add. f_equal. field. }
    change (seen (fun _ => 0%nat) (fun _ => 1%nat) M g1 0) with (fun (_ _ _ _ : nat) => cmul (cmul (c1 : RC) (mm, 0)) (cconj (c1 : RC))). cbv beta.
    rewrite !csum_const.
    assert (S5 : sin 5 < 0).
    { apply sin_lt_0; [generalize PI_4; lra|generalize PI2_3_2; lra]. }
    assert (PN : 0 < INR N) by (apply lt_0_INR; lia).
    assert (SC := sin2_cos2 5). unfold Rsqr in SC. unfold D, norm2, re, im, cis. cbn.
    set (C := cos 5) in *. set (S := sin 5) in *.
    set (k := INR N) in *.
    assert (P : 0 < k * mm * mm) by (apply Rmult_lt_0_compat; [apply Rmult_lt_0_compat; auto|auto]).
    assert (E : S * S = 1 - C * C) by lra.
    assert (A : (0 - k * (mm * C - 0 * S)) * (0 - k * (mm * C - 0 * S)) + (dd - k * (mm * S + 0 * C)) * (dd - k * (mm * S + 0 * C)) =
      k * mm * (k * mm) * (C * C + S * S) + dd * dd - 2 * dd * (k * mm) * S) by ring.
    rewrite A, E, Hd.
    assert (Q : 0 < k * mm * mm * - S) by (apply Rmult_lt_0_compat; lra).
    nra.
  Qed.
End Bad.
Lemma phase_converges n nant ncorr nchan tbi tbc ant1 ant2 (g : gain_arr RCF) (vis : vis_arr RCF) (m : model_arr RCF) flag weight tmin use Jmin tol maxiter :
  solver_inputs n nant ncorr nchan 1 tbi tbc ant1 ant2 g vis m flag tmin use ->
  data_within_model n nchan ncorr tbi tmin tbc use (fun r f s c => m_at m r f s c 0%nat) (fun r f c => v_at vis r f c 0%nat) ->
  0 < Jmin -> (forall t a f c, gain_in n nant nchan 1 ncorr t a f 0 c -> Jmin <= JHJ tbi tmin tbc ant1 ant2 use (Mw m weight) (j_at g) t a f 0%nat c) ->
  0 < tol < 1 -> (0 < maxiter)%nat ->
  let cost G := misfit n nchan ncorr tbi tmin tbc ant1 ant2 1 use (Mw m weight) (Dw vis weight) G in
  exists g' jhj jhr k,
    snd (gauss_newton n nant ncorr tbi tbc ant1 ant2 g vis flag m weight tol maxiter) = Ok (g', jhj, jhr, k) /\
    (1 <= k <= maxiter)%nat /\ pure_phases n nchan 1 ncorr (j_at g') /\
    cost (j_at g') + INR (k - 1) * (2 * Jmin * (tol * tol)) <= cost (j_at g) /\
    (cost (j_at g) < INR (maxiter - 1) * (2 * Jmin * (tol * tol)) ->
      (k < maxiter)%nat /\
      forall t a f c, gain_in n nant nchan 1 ncorr t a f 0 c -> Rabs (re (jhr t a f 0%nat c 0%nat)) <= 2 * tol * jhj t a f 0%nat c 0%nat).
Proof.
  intros SI HD HJ HJm Ht Hmax cost. destruct SI. unfold cost. apply (run_converges n nant ncorr nchan tbi tbc ant1 ant2 g vis m flag weight tmin use); auto.
  now apply weighted_within.
Qed.
Lemma one_inputs N mm dd : solver_inputs 1 2 1 1 N (fun _ => 0%Z) (fun _ => 1%nat) (fun _ => 0%nat) (fun _ => 1%nat) (one_gains N) (one_vis dd) (one_model N mm)
  (fun _ _ _ _ => false) 0%Z (fun _ _ => true).
Proof.
  constructor; try reflexivity; try lia.
  - split; [exists 0%nat; split; [lia|reflexivity]|intros; lia].
  - intros t t' r Ht Ht' _ _. lia.
  - intros r f. split; [|auto]. intros _ (i & j & _ & H). discriminate H.
  - intros t r _ _. split; lia.
  - intros t a f s c _ _ _ _. unfold norm2, re, im. cbn. ring.
Qed.
Lemma one_worse N mm dd g' jhj jhr k : 0 < mm -> dd = 5 * mm -> (0 < N)%nat ->
  snd (gauss_newton 1 2 1 (fun _ => 0%Z) (fun _ => 1%nat) (fun _ => 0%nat) (fun _ => 1%nat) (one_gains N) (one_vis dd) (fun _ _ _ _ => false) (one_model N mm) (fun _ _ _ => 1) (/ 2) 1) = Ok (g', jhj, jhr, k) ->
  misfit 1 1 1 (fun _ => 0%Z) 0%Z (fun _ => 1%nat) (fun _ => 0%nat) (fun _ => 1%nat) N (fun _ _ => true) (Mw (one_model N mm) (fun _ _ _ => 1)) (Dw (one_vis dd) (fun _ _ _ => 1)) (j_at (one_gains N)) <
  misfit 1 1 1 (fun _ => 0%Z) 0%Z (fun _ => 1%nat) (fun _ => 0%nat) (fun _ => 1%nat) N (fun _ _ => true) (Mw (one_model N mm) (fun _ _ _ => 1)) (Dw (one_vis dd) (fun _ _ _ => 1)) (j_at g').
Proof.
  intros Hm Hd HN HE.
  assert (EM : Mw (one_model N mm) (fun _ _ _ => 1) = (fun (_ _ _ _ : nat) => ((mm, 0) : RC))).
  { cbn. rewrite sqrt_1. replace (mm * 1 - 0 * 0) with mm by ring. replace (mm * 0 + 0 * 1) with 0 by ring. reflexivity. }
  assert (ED : Dw (one_vis dd) (fun _ _ _ => 1) = (fun (_ _ _ : nat) => ((0, dd) : RC))).
  { cbn. rewrite sqrt_1. replace (0 * 1 - dd * 0) with 0 by ring. replace (0 * 0 + dd * 1) with dd by ring. reflexivity. }
  destruct (one_inputs N mm dd).
  destruct (gn_main 1 2 1 1 N (fun _ => 0%Z) (fun _ => 1%nat) (fun _ => 0%nat) (fun _ => 1%nat) (one_gains N) (one_vis dd) (one_model N mm) (fun _ _ _ _ => false) (fun _ _ _ => 1) 0%Z (fun _ _ => true)
    si_n si_min si_bins si_use si_vcorr si_mcorr si_vchan si_mdir si_model si_vis si_tim si_chan si_dir (/ 2) 1 ltac:(lra)) as [_ H].
  destruct (H ltac:(lra) ltac:(lia)) as (g2 & jhj2 & jhr2 & k2 & G & E & Hk & G0 & Gk & HV & _).
  rewrite HE in E. injection E as <- <- <- <-. assert (k = 1)%nat by lia. subst k.
  rewrite EM, ED in *. rewrite Gk.
  apply bad_worse; auto. intros a s Hs. destruct (HV 0%nat a 0%nat s 0%nat ltac:(lia) ltac:(lia) Hs ltac:(lia)) as (_ & _ & V). rewrite (V 0%nat) by lia. rewrite G0. reflexivity.
Qed.
Lemma one_ok N mm dd : exists g' jhj jhr k,
  snd (gauss_newton 1 2 1 (fun _ => 0%Z) (fun _ => 1%nat) (fun _ => 0%nat) (fun _ => 1%nat) (one_gains N) (one_vis dd) (fun _ _ _ _ => false) (one_model N mm) (fun _ _ _ => 1) (/ 2) 1) = Ok (g', jhj, jhr, k).
Proof.
  destruct (one_inputs N mm dd).
  destruct (gn_main 1 2 1 1 N (fun _ => 0%Z) (fun _ => 1%nat) (fun _ => 0%nat) (fun _ => 1%nat) (one_gains N) (one_vis dd) (one_model N mm) (fun _ _ _ _ => false) (fun _ _ _ => 1) 0%Z (fun _ _ => true)
    si_n si_min si_bins si_use si_vcorr si_mcorr si_vchan si_mdir si_model si_vis si_tim si_chan si_dir (/ 2) 1 ltac:(lra)) as [_ H].
  destruct (H ltac:(lra) ltac:(lia)) as (g2 & jhj2 & jhr2 & k2 & G & E & _). eauto.
Qed.
