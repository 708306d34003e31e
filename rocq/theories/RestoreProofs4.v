From Coq Require Import Reals Lra.
From Coq Require Import Ratan.
From Verif Require Import Prelude CRing CplxR FftFacts RestoreModel RestoreSpec RestoreProofs RestoreProofs2 RestoreProofs3.
Open Scope R_scope.

Lemma pi_bounds : 3.1035 < PI < 3.1575.
Proof.
  pose proof (PI_2_3_7_ineq 1) as H. cbn [Nat.mul Nat.add] in H. unfold PI_2_3_7_tg, tg_alt, Ratan_seq in H. cbn [sum_f_R0 pow Nat.mul Nat.add INR] in H. lra.
Qed.
Lemma sin_180 : sin 180 <> 0.
Proof.
  intros H. apply sin_eq_0_0 in H. destruct H as [k H]. pose proof pi_bounds as [A B].
  assert (L : 57 < IZR k) by nra. assert (U : IZR k < 58) by nra. apply lt_IZR in L. apply lt_IZR in U. lia.
Qed.
Lemma beam_degrees : exists s0 s1 pa x y, 0 < s0 /\ 0 < s1 /\ clean_beam s0 s1 (pa + 180) x y <> clean_beam s0 s1 pa x y.
Proof.
  exists 2, 1, (-90), 1, 0. split; [lra|split; [lra|]]. unfold clean_beam. rewrite Rmax_left, Rmin_right by lra.
  replace (1 * 1 + 0 * 0) with 1 by ring. rewrite sqrt_1. destruct (Rle_dec 1 (5 * 2)) as [_|N]; [|lra]. unfold ellipse.
  replace (90 + -90) with 0 by ring. replace (90 + (-90 + 180)) with 180 by ring. rewrite cos_0, sin_0. intros E. apply exp_inv in E.
  pose proof sin_180 as S0. pose proof fwhm_pos as F. pose proof (sin2_cos2 180) as T. unfold Rsqr in *.
  assert (Q : sin 180 * sin 180 = 0); [|apply Rmult_integral in Q; tauto].
  assert (W : fwhm_conv * (3 / 4 * (sin 180 * sin 180)) = 0); [|apply Rmult_integral in W; lra].
  assert (C : cos 180 * cos 180 = 1 - sin 180 * sin 180) by lra.
  transitivity (- (- fwhm_conv * ((1 - sin 180 * sin 180) / 4 + sin 180 * sin 180)) - fwhm_conv / 4); [field|].
  rewrite <- C. lra.
Qed.
Lemma registered pocket fast frac n1 n2 M G b k1 k2 ref_l dl ref_m dm s0 s1 pa :
  fast_ok fast -> 0 < s0 -> 0 < s1 -> dl <> 0 -> dm <> 0 -> (k1 < n1)%nat -> (k2 < n2)%nat ->
  pocket = true \/ Nat.even (padded fast frac n2) = true ->
  ref_m = INR (centre fast frac n1) + 1 -> ref_l = INR (centre fast frac n2) + 1 ->
  fits_axis (5 * Rmax s0 s1) (padded fast frac n1) n1 (centre fast frac n1) ref_m dm ->
  fits_axis (5 * Rmax s0 s1) (padded fast frac n2) n2 (centre fast frac n2) ref_l dl ->
  Gaussian2D n1 n2 (fun _ j => coord ref_l dl j) (fun i _ => coord ref_m dm i) s0 s1 pa = Ok G ->
  cu_at (convolve_model pocket fast frac n1 n2 M G) b k1 k2 =
  rsum n1 (fun i1 => rsum n2 (fun i2 => M b i1 i2 * clean_beam s0 s1 pa ((INR k2 - INR i2) * dl) ((INR k1 - INR i1) * dm))).
Proof.
  intros F P0 P1 DL DM K1 K2 LC RM RL FM FL E. rewrite (restored_main pocket fast frac n1 n2 M G b k1 k2 ref_l dl ref_m dm s0 s1 pa) by assumption. rewrite RM, RL.
  unfold restored. apply (csum_ext (K := RR)). intros i1 I1. apply (csum_ext (K := RR)). intros i2 I2. cbv beta. f_equal. f_equal; ring.
Qed.
Lemma displaced pocket fast frac n1 n2 G b p1 p2 flux ref_l dl ref_m dm s0 s1 pa :
  fast_ok fast -> 0 < s0 -> 0 < s1 -> dl <> 0 -> dm <> 0 -> (1 <= p1 < n1)%nat -> (1 <= p2 < n2)%nat -> 0 < flux ->
  Nat.odd n1 = true -> Nat.odd n2 = true -> Nat.even (padded fast frac n1) = true -> Nat.even (padded fast frac n2) = true ->
  ref_m = INR (Nat.div n1 2) + 1 -> ref_l = INR (Nat.div n2 2) + 1 ->
  fits_axis (5 * Rmax s0 s1) (padded fast frac n1) n1 (centre fast frac n1) ref_m dm ->
  fits_axis (5 * Rmax s0 s1) (padded fast frac n2) n2 (centre fast frac n2) ref_l dl ->
  Gaussian2D n1 n2 (fun _ j => coord ref_l dl j) (fun i _ => coord ref_m dm i) s0 s1 pa = Ok G ->
  let out := convolve_model pocket fast frac n1 n2 (fun _ => point_source flux p1 p2) G in
  cu_at out b (p1 - 1)%nat (p2 - 1)%nat = flux /\ cu_at out b p1 p2 < flux.
Proof.
  intros F P0 P1 DL DM Q1 Q2 FX O1 O2 E1 E2 RM RL FM FL E out. unfold out.
  pose proof (centre_at fast frac n1 F) as C1. pose proof (centre_at fast frac n2 F) as C2. rewrite O1, E1 in C1. rewrite O2, E2 in C2. cbn [andb] in C1, C2.
  rewrite !(restored_main pocket fast frac n1 n2 _ G b _ _ ref_l dl ref_m dm s0 s1 pa) by (assumption || lia || (right; assumption)).
  rewrite !restored_point by lia. rewrite C1, C2, RM, RL, !plus_INR, !minus_INR by lia. cbn [INR]. split.
  - replace ((INR p2 - 1 - INR p2 + (INR (n2 / 2) + 1 - (INR (n2 / 2) + 1 - 1))) * dl) with 0 by ring.
    replace ((INR p1 - 1 - INR p1 + (INR (n1 / 2) + 1 - (INR (n1 / 2) + 1 - 1))) * dm) with 0 by ring. rewrite beam_centre by assumption. ring.
  - replace ((INR p2 - INR p2 + (INR (n2 / 2) + 1 - (INR (n2 / 2) + 1 - 1))) * dl) with dl by ring.
    replace ((INR p1 - INR p1 + (INR (n1 / 2) + 1 - (INR (n1 / 2) + 1 - 1))) * dm) with dm by ring.
    pose proof (beam_below s0 s1 pa dl dm P0 P1 (or_introl DL)) as B. nra.
Qed.
Lemma gauss_ok n1 n2 xin yin s0 s1 pa i j i' j' : 0 < s0 -> 0 < s1 -> (1 < n1)%nat -> (1 < n2)%nat ->
  (i < n1)%nat -> (j < n2)%nat -> (i' < n1)%nat -> (j' < n2)%nat -> (i, j) <> (i', j') ->
  sqrt (xin i j * xin i j + yin i j * yin i j) <= 5 * Rmax s0 s1 -> sqrt (xin i' j' * xin i' j' + yin i' j' * yin i' j') <= 5 * Rmax s0 s1 ->
  exists G, Gaussian2D n1 n2 xin yin s0 s1 pa = Ok G.
Proof.
  intros P0 P1 N1 N2 I J I' J' NE H H'. destruct (Gaussian2D n1 n2 xin yin s0 s1 pa) as [G|e] eqn:E; [now exists G|]. exfalso.
  apply gauss_raises in E; [|assumption|assumption]. destruct E as [_ [E|[E|(a & c & _ & _ & _ & U)]]]; try lia.
  pose proof (U i j I J) as A. pose proof (U i' j' I' J') as B. cbv beta in A, B. destruct (Rle_dec _ _) in A; [|contradiction]. destruct (Rle_dec _ _) in B; [|contradiction].
  destruct (A eq_refl), (B eq_refl). subst. now apply NE.
Qed.
Lemma npad_4 (z : Z) n : IZR z <= / 4 * INR n < IZR z + 1 -> npad (1 / 2) n = Z.to_nat z.
Proof. intros H. unfold npad. f_equal. unfold Int_part. pose proof (tech_up (1 / 2 / 2 * INR n) (z + 1)) as T. rewrite plus_IZR in T. rewrite <- T; [lia|lra|lra]. Qed.
