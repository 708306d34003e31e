(* C44-C46: Hogbom CLEAN *)
From Coq Require Import Reals Lra.
From Verif Require Import Prelude CRing CplxR HogModel HogSpec HogProofs.
Open Scope nat_scope.

(* C44.  The dirty image is the residual plus the components convolved with the PSF centred on pixel (n-1, n-1). *)
Theorem C44_flux_conserved : forall n dirty psf gamma threshold niter C R, 0 < n ->
  hogbom_clean n n dirty (2 * n) (2 * n) psf gamma threshold niter = Ok (C, R) ->
  forall x y, in_image n n x y -> dirty x y = (R x y + spread n C psf x y)%R.
Proof. exact hogbom_conserves. Qed.
Theorem C44_point_psf : forall n dirty gamma threshold niter C R, 0 < n ->
  hogbom_clean n n dirty (2 * n) (2 * n) (point_psf (n - 1) (n - 1)) gamma threshold niter = Ok (C, R) ->
  forall x y, in_image n n x y -> (C x y + R x y = dirty x y)%R.
Proof. exact hogbom_point. Qed.
(* that centre is not the middle pixel (n, n): with a PSF centred there the peak is not reduced *)
Theorem C44_psf_centre_refuted : ~ forall n dirty gamma threshold niter C R, 0 < n ->
  hogbom_clean n n dirty (2 * n) (2 * n) (point_psf n n) gamma threshold niter = Ok (C, R) ->
  forall x y, in_image n n x y -> (C x y + R x y = dirty x y)%R.
Proof.
  intros H. destruct (one_cycle 1 (/ 2) (point_psf 1 1) ltac:(lra)) as (C & R & E & EC & ER).
  specialize (H 1 (fun _ _ => 1%R) (/ 2)%R (Some 0%R) (Some 0%Z) C R ltac:(lia) E 0 0 ltac:(unfold in_image; lia)). rewrite EC, ER in H. cbn in H. lra.
Qed.
(* restoring convolves the components with the clean beam in the same way and adds the residual *)
Theorem C44_restore : forall curve_fit n clean psf residuals x y, in_image n n x y ->
  let beam := fit_2d_gaussian curve_fit (2 * n) psf in
  snd (restore curve_fit n clean psf residuals) x y = spread n clean beam x y /\
  fst (restore curve_fit n clean psf residuals) x y = (residuals x y + spread n clean beam x y)%R.
Proof. exact restore_spec. Qed.
Theorem C44_restore_with_psf : forall curve_fit n dirty psf gamma threshold niter C R, 0 < n ->
  hogbom_clean n n dirty (2 * n) (2 * n) psf gamma threshold niter = Ok (C, R) ->
  (forall i j, i < 2 * n -> j < 2 * n -> fit_2d_gaussian curve_fit (2 * n) psf i j = psf i j) ->
  forall x y, in_image n n x y -> fst (restore curve_fit n C psf R) x y = dirty x y.
Proof. exact restore_dirty. Qed.
Theorem C44_beam_peak : forall curve_fit n psf, 0 < n ->
  (exists i j, in_image n n i j /\ (0 < twod_gaussian (curve_fit (fun i j => if Rle_dec (/ 2 * amax n n psf) (psf i j) then psf i j else 0%R)) (INR j) (INR i))%R) ->
  is_max n n (fit_2d_gaussian curve_fit n psf) 1%R.
Proof. exact beam_peak. Qed.
(* the clean beam is the elliptical Gaussian that was fitted to the main lobe, with x along the second axis *)
Theorem C44_beam_shape : forall curve_fit n psf peak, 0 < n -> is_max n n psf peak ->
  let k := curve_fit (main_lobe peak psf) in g_sx k <> 0%R -> g_sy k <> 0%R ->
  let beam := fun i j => ellipse (g_off k) (g_amp k) (g_xo k) (g_yo k) (g_sx k) (g_sy k) (g_theta k) (INR j) (INR i) in
  exists top, is_max n n beam top /\ forall i j, fit_2d_gaussian curve_fit n psf i j = (beam i j / top)%R.
Proof. exact beam_shape. Qed.

(* C45.  k cycles are made, k <= niter + 1; the run stops before that only with the largest residual within
   threshold times the absolute value of the largest dirty pixel *)
Theorem C45_run : forall n dirty psf gamma threshold niter, 0 < n -> exists v k Cs Rs,
  is_max n n dirty v /\
  hogbom_clean n n dirty (2 * n) (2 * n) psf gamma threshold niter = Ok (Cs k, Rs k) /\
  k <= Z.to_nat (niter_of n niter + 1) /\ (forall x y, Cs 0 x y = 0%R) /\ Rs 0 = dirty /\
  let thr := (match threshold with Some t => t | None => 2 / 10 end * Rabs v)%R in
  clean_run n psf gamma thr k Cs Rs /\
  (k < Z.to_nat (niter_of n niter + 1) -> exists v, is_max n n (Rs k) v /\ (Rabs v <= thr)%R).
Proof. exact hogbom_spec. Qed.
Theorem C45_errors : forall ny nx dirty py px psf gamma threshold niter,
  (py <> 2 * ny \/ px <> 2 * nx -> hogbom_clean ny nx dirty py px psf gamma threshold niter = Raise ValueError) /\
  (py = 2 * ny -> px = 2 * nx -> ny <> nx -> hogbom_clean ny nx dirty py px psf gamma threshold niter = Raise AssertionError) /\
  (ny = 0 -> nx = 0 -> py = 0 -> px = 0 -> hogbom_clean ny nx dirty py px psf gamma threshold niter = Raise ValueError).
Proof. exact hogbom_errors. Qed.
(* niter is not an upper bound: niter = 0 still makes a cycle *)
Theorem C45_at_most_niter_refuted : ~ forall n dirty psf gamma threshold C R, 0 < n ->
  hogbom_clean n n dirty (2 * n) (2 * n) psf gamma threshold (Some 0%Z) = Ok (C, R) -> forall x y, in_image n n x y -> C x y = 0%R.
Proof.
  intros H. destruct (one_cycle 1 (/ 2) (point_psf 0 0) ltac:(lra)) as (C & R & E & EC & ER).
  specialize (H 1 (fun _ _ => 1%R) (point_psf 0 0) (/ 2)%R (Some 0%R) C R ltac:(lia) E 0 0 ltac:(unfold in_image; lia)). lra.
Qed.
(* threshold is a fraction, not "the threshold to clean to" *)
Theorem C45_absolute_threshold_refuted : ~ forall n dirty psf gamma t, 0 < n -> exists niter C R v,
  hogbom_clean n n dirty (2 * n) (2 * n) psf gamma (Some t) (Some (Z.of_nat niter)) = Ok (C, R) /\ is_max n n R v /\ (v <= t)%R.
Proof.
  intros H. destruct (H 1 (fun _ _ => 10%R) (point_psf 0 0) (/ 2)%R 2%R ltac:(lia)) as (niter & C & R & v & E & M & L).
  destruct (C45_run 1 (fun _ _ => 10%R) (point_psf 0 0) (/ 2)%R (Some 2%R) (Some (Z.of_nat niter)) ltac:(lia)) as (v0 & k & Cs & Rs & M0 & E2 & K & C0 & R0 & St & _).
  assert (V0 : forall w, is_max 1 1 (fun _ _ => 10%R) w -> w = 10%R) by (intros w [(x & y & _ & <-) _]; reflexivity).
  apply V0 in M0. subst v0. rewrite E in E2. injection E2 as -> ->.
  destruct k as [|k].
  - rewrite R0 in M. apply V0 in M. lra.
  - destruct (St 0 ltac:(lia)) as (w & p & q & M1 & _ & T & _). rewrite R0 in M1. apply V0 in M1. subst w. rewrite (Rabs_right 10) in T by lra. lra.
Qed.

(* C46.  The last pixel in row-major order holding the largest (signed) value, likewise for the smallest *)
Theorem C46_peak : forall nx ny a, 0 < nx -> 0 < ny -> exists p q pm qm v, find_peak nx ny a = Ok (p, q, pm, qm, v) /\
  is_max nx ny a v /\ last_with nx ny a v p q /\ (exists u, is_min_of nx ny a u /\ last_with nx ny a u pm qm).
Proof. exact find_peak_spec. Qed.
Theorem C46_empty : forall nx ny a, nx = 0 \/ ny = 0 -> find_peak nx ny a = Raise ValueError.
Proof. exact find_peak_empty. Qed.
(* it is not the largest absolute value *)
Theorem C46_absolute_refuted : ~ forall nx ny a p q pm qm v, find_peak nx ny a = Ok (p, q, pm, qm, v) ->
  forall x y, in_image nx ny x y -> (Rabs (a x y) <= Rabs v)%R.
Proof.
  intros H. pose (a := fun x y : nat => if Nat.eqb y 0 then (-5)%R else 1%R).
  destruct (C46_peak 1 2 a ltac:(lia) ltac:(lia)) as (p & q & pm & qm & v & E & [(x & y & [Hx Hy] & V) B] & _).
  specialize (H 1 2 a p q pm qm v E 0 0 ltac:(unfold in_image; lia)). assert (v = 1%R).
  { specialize (B 0 1 ltac:(unfold in_image; lia)). unfold a in *. cbn in B. destruct (Nat.eqb y 0); lra. }
  rewrite H0 in H. change (a 0 0) with (-5)%R in H. rewrite Rabs_R1, Rabs_left in H by lra. lra.
Qed.
(* nor the first of several *)
Theorem C46_first_refuted : ~ forall nx ny a p q pm qm v, find_peak nx ny a = Ok (p, q, pm, qm, v) ->
  forall x y, in_image nx ny x y -> a x y = v -> ~ later x y p q.
Proof.
  intros H. destruct (C46_peak 1 2 (fun _ _ => 1%R) ltac:(lia) ltac:(lia)) as (p & q & pm & qm & v & E & [(x & y & _ & V) _] & ((Hp & Hq) & _ & L) & _).
  assert (q = 1) as ->.
  { destruct (Nat.eq_dec q 1) as [|N]; auto. exfalso. apply (L 0 1); [unfold in_image; lia|unfold later; lia|exact V]. }
  apply (H 1 2 _ _ _ _ _ _ E 0 0); [unfold in_image; lia|exact V|unfold later; lia].
Qed.

(* ---------- the hypotheses can be met ---------- *)
Example C44_case : exists C R, hogbom_clean 1 1 (fun _ _ => 3%R) 2 2 (point_psf 0 0) (/ 4) (Some 0%R) (Some 0%Z) = Ok (C, R) /\ C 0 0 = (3 / 4)%R /\ R 0 0 = (9 / 4)%R.
Proof. destruct (one_cycle 3 (/ 4) (point_psf 0 0) ltac:(lra)) as (C & R & E & EC & ER). exists C, R. split; [exact E|]. rewrite EC, ER. cbn. split; lra. Qed.
Example C44_beam_case : let k := {| g_amp := 1; g_xo := 0; g_yo := 0; g_sx := 1; g_sy := 1; g_theta := 0; g_off := 0 |}%R in (0 < twod_gaussian k (INR 0) (INR 0))%R.
Proof. cbv zeta. unfold twod_gaussian. cbn [g_amp g_off]. rewrite Rplus_0_l, Rmult_1_l. apply exp_pos. Qed.

Print Assumptions C44_flux_conserved.
Print Assumptions C44_point_psf.
Print Assumptions C44_psf_centre_refuted.
Print Assumptions C44_restore.
Print Assumptions C44_restore_with_psf.
Print Assumptions C44_beam_peak.
Print Assumptions C44_beam_shape.
Print Assumptions C45_run.
Print Assumptions C45_errors.
Print Assumptions C45_at_most_niter_refuted.
Print Assumptions C45_absolute_threshold_refuted.
Print Assumptions C46_peak.
Print Assumptions C46_empty.
Print Assumptions C46_absolute_refuted.
Print Assumptions C46_first_refuted.
