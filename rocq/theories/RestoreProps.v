(* C106: the clean beam and the model restored with it (spectral index fitter). *)
From Coq Require Import Reals Lra.
From Verif Require Import Prelude CRing CplxR FftFacts RestoreModel RestoreSpec RestoreProofs RestoreProofs2 RestoreProofs3 RestoreProofs4.
Open Scope R_scope.

(* the kernel image holds the clean beam at every pixel's coordinates *)
Theorem C106_beam : forall n1 n2 xin yin s0 s1 pa G, 0 < s0 -> 0 < s1 -> Gaussian2D n1 n2 xin yin s0 s1 pa = Ok G ->
  forall i j, G i j = clean_beam s0 s1 pa (xin i j) (yin i j).
Proof. exact gauss_value. Qed.
Print Assumptions C106_beam.

(* it refuses images with an axis of one pixel, and beams so narrow (or so far away) that exactly one pixel lies within the cut-off *)
Theorem C106_beam_raises : forall n1 n2 xin yin s0 s1 pa e, 0 < s0 -> 0 < s1 ->
  Gaussian2D n1 n2 xin yin s0 s1 pa = Raise e <->
  e = IndexError /\ (n1 = 1%nat \/ n2 = 1%nat \/ lone n1 n2 (fun i j => if Rle_dec (sqrt (xin i j * xin i j + yin i j * yin i j)) (5 * Rmax s0 s1) then true else false)).
Proof. exact gauss_raises. Qed.
Print Assumptions C106_beam_raises.

(* so a beam narrower than a fifth of a pixel never works *)
Theorem C106_narrow_beam_raises : forall n1 n2 i0 j0 dl dm s0 s1 pa, 0 < s0 -> 0 < s1 -> (i0 < n1)%nat -> (j0 < n2)%nat ->
  5 * Rmax s0 s1 < Rabs dl -> 5 * Rmax s0 s1 < Rabs dm ->
  Gaussian2D n1 n2 (fun _ j => coord (INR j0 + 1) dl j) (fun i _ => coord (INR i0 + 1) dm i) s0 s1 pa = Raise IndexError.
Proof. exact narrow_beam. Qed.
Print Assumptions C106_narrow_beam_raises.

(* one at the centre, less than one and not negative elsewhere, the same on both sides, unchanged by half a turn *)
Theorem C106_beam_shape : forall s0 s1 pa, 0 < s0 -> 0 < s1 ->
  clean_beam s0 s1 pa 0 0 = 1 /\
  (forall x y, x <> 0 \/ y <> 0 -> 0 <= clean_beam s0 s1 pa x y < 1) /\
  (forall x y, clean_beam s0 s1 pa (- x) (- y) = clean_beam s0 s1 pa x y) /\
  (forall x y, clean_beam s0 s1 (pa + PI) x y = clean_beam s0 s1 pa x y).
Proof.
  intros s0 s1 pa P0 P1. split; [now apply beam_centre|split; [intros x y; now apply beam_below|split; intros x y; [apply beam_point_symmetric|apply beam_half_turn]]].
Qed.
Print Assumptions C106_beam_shape.

(* the widths are said to be full widths at half maximum: they are not, the beam is wider at every angle *)
Theorem C106_half_maximum_refuted : forall s pa x y, 0 < s -> sqrt (x * x + y * y) = s / 2 -> / 2 < clean_beam s s pa x y.
Proof. exact beam_too_wide. Qed.
Print Assumptions C106_half_maximum_refuted.

(* position angles in degrees (as in a FITS header) are not understood: half a turn of 180 changes the beam *)
Theorem C106_degrees_refuted : exists s0 s1 pa x y, 0 < s0 /\ 0 < s1 /\ clean_beam s0 s1 (pa + 180) x y <> clean_beam s0 s1 pa x y.
Proof. exact beam_degrees. Qed.
Print Assumptions C106_degrees_refuted.

(* the FFT convolution is a circular convolution on the padded axes, band by band, for every image, kernel, padding and fast length *)
Theorem C106_convolution : forall pocket fast frac n1 n2 M G b k1 k2,
  fast_ok fast -> (0 < n1)%nat -> (0 < n2)%nat -> pocket = true \/ Nat.even (padded fast frac n2) = true ->
  cu_at (convolve_model pocket fast frac n1 n2 M G) b k1 k2 =
  circular (padded fast frac n1) (padded fast frac n2) (centre fast frac n1) (centre fast frac n2) n1 n2 (M b) G k1 k2.
Proof. exact convolve_at. Qed.
Print Assumptions C106_convolution.

(* which pixel of the kernel image counts as its centre *)
Theorem C106_centre : forall fast frac n, fast_ok fast ->
  centre fast frac n = (if Nat.odd n && Nat.even (padded fast frac n) then Nat.div n 2 + 1 else Nat.div n 2)%nat.
Proof. exact centre_at. Qed.
Print Assumptions C106_centre.

(* the result has the shape of the model, except that an axis without padding comes back empty and that numpy loses a column of an
   odd padded axis *)
Theorem C106_shape : forall pocket fast frac n1 n2 M G, fast_ok fast ->
  let out := convolve_model pocket fast frac n1 n2 M G in
  (padded fast frac n1 <> n1 -> cu_1 out = n1) /\ (padded fast frac n1 = n1 -> cu_1 out = 0%nat) /\
  (padded fast frac n2 <> n2 -> pocket = true \/ Nat.even (padded fast frac n2) = true -> cu_2 out = n2) /\
  (padded fast frac n2 <> n2 -> pocket = false -> Nat.odd (padded fast frac n2) = true -> cu_2 out = (n2 - 1)%nat) /\
  (padded fast frac n2 = n2 -> cu_2 out = 0%nat).
Proof.
  intros pocket fast frac n1 n2 M G F out. destruct (convolve_shape pocket fast frac n1 n2 M G) as [A B]. fold out in A, B.
  pose proof (no_right_pad fast frac n1 F) as N1. pose proof (no_right_pad fast frac n2 F) as N2.
  destruct (Nat.eqb_spec (snd (axis_pad fast frac n1)) 0) as [Z1|Z1], (Nat.eqb_spec (snd (axis_pad fast frac n2)) 0) as [Z2|Z2];
    (split; [tauto|split; [tauto|split; [|split; [|tauto]]]]); intros H; try tauto.
  all: try (intros [->|E]; [|rewrite E in B; rewrite orb_true_r in B]; cbn [orb] in B; exact B).
  all: intros -> O; rewrite <- Nat.negb_odd, O in B; exact B.
Qed.
Print Assumptions C106_shape.

(* the restored model: every model pixel replaced by the clean beam centred on it, when the header's reference pixel is the centre and
   the beam fits into image and padding *)
Theorem C106_restored : forall pocket fast frac n1 n2 M G b k1 k2 ref_l dl ref_m dm s0 s1 pa,
  fast_ok fast -> 0 < s0 -> 0 < s1 -> dl <> 0 -> dm <> 0 -> (k1 < n1)%nat -> (k2 < n2)%nat ->
  pocket = true \/ Nat.even (padded fast frac n2) = true ->
  ref_m = INR (centre fast frac n1) + 1 -> ref_l = INR (centre fast frac n2) + 1 ->
  fits_axis (5 * Rmax s0 s1) (padded fast frac n1) n1 (centre fast frac n1) ref_m dm ->
  fits_axis (5 * Rmax s0 s1) (padded fast frac n2) n2 (centre fast frac n2) ref_l dl ->
  Gaussian2D n1 n2 (fun _ j => coord ref_l dl j) (fun i _ => coord ref_m dm i) s0 s1 pa = Ok G ->
  cu_at (convolve_model pocket fast frac n1 n2 M G) b k1 k2 =
  rsum n1 (fun i1 => rsum n2 (fun i2 => M b i1 i2 * clean_beam s0 s1 pa ((INR k2 - INR i2) * dl) ((INR k1 - INR i1) * dm))).
Proof. exact registered. Qed.
Print Assumptions C106_restored.

(* for any other reference pixel the same image displaced by the difference *)
Theorem C106_restored_elsewhere : forall pocket fast frac n1 n2 M G b k1 k2 ref_l dl ref_m dm s0 s1 pa,
  fast_ok fast -> 0 < s0 -> 0 < s1 -> dl <> 0 -> dm <> 0 -> (k1 < n1)%nat -> (k2 < n2)%nat ->
  pocket = true \/ Nat.even (padded fast frac n2) = true ->
  fits_axis (5 * Rmax s0 s1) (padded fast frac n1) n1 (centre fast frac n1) ref_m dm ->
  fits_axis (5 * Rmax s0 s1) (padded fast frac n2) n2 (centre fast frac n2) ref_l dl ->
  Gaussian2D n1 n2 (fun _ j => coord ref_l dl j) (fun i _ => coord ref_m dm i) s0 s1 pa = Ok G ->
  cu_at (convolve_model pocket fast frac n1 n2 M G) b k1 k2 =
  restored n1 n2 (fun d1 d2 => clean_beam s0 s1 pa (d2 * dl) (d1 * dm)) (INR (centre fast frac n1) - (ref_m - 1)) (INR (centre fast frac n2) - (ref_l - 1)) (M b) k1 k2.
Proof. exact restored_main. Qed.
Print Assumptions C106_restored_elsewhere.

(* so an image with an odd number of pixels, referenced to its middle pixel and padded to an even length, is restored one pixel off:
   a point source peaks next to where it is *)
Theorem C106_odd_image_refuted : forall pocket fast frac n1 n2 G b p1 p2 flux ref_l dl ref_m dm s0 s1 pa,
  fast_ok fast -> 0 < s0 -> 0 < s1 -> dl <> 0 -> dm <> 0 -> (1 <= p1 < n1)%nat -> (1 <= p2 < n2)%nat -> 0 < flux ->
  Nat.odd n1 = true -> Nat.odd n2 = true -> Nat.even (padded fast frac n1) = true -> Nat.even (padded fast frac n2) = true ->
  ref_m = INR (Nat.div n1 2) + 1 -> ref_l = INR (Nat.div n2 2) + 1 ->
  fits_axis (5 * Rmax s0 s1) (padded fast frac n1) n1 (centre fast frac n1) ref_m dm ->
  fits_axis (5 * Rmax s0 s1) (padded fast frac n2) n2 (centre fast frac n2) ref_l dl ->
  Gaussian2D n1 n2 (fun _ j => coord ref_l dl j) (fun i _ => coord ref_m dm i) s0 s1 pa = Ok G ->
  let out := convolve_model pocket fast frac n1 n2 (fun _ => point_source flux p1 p2) G in
  cu_at out b (p1 - 1)%nat (p2 - 1)%nat = flux /\ cu_at out b p1 p2 < flux.
Proof. exact displaced. Qed.
Print Assumptions C106_odd_image_refuted.

(* ---- the hypotheses are met ---- *)
(* 16 x 16 pixels of one unit, a round beam of width one, half the image padded: 24 x 24 *)
Example C106_ex_restored : let fast := Some (fun n => Nat.max n 24) in
  fast_ok fast /\ padded fast (1 / 2) 16 = 24%nat /\ centre fast (1 / 2) 16 = 8%nat /\
  fits_axis (5 * Rmax 1 1) (padded fast (1 / 2) 16) 16 (centre fast (1 / 2) 16) 9 1 /\
  9 = INR (centre fast (1 / 2) 16) + 1 /\ Nat.even (padded fast (1 / 2) 16) = true /\
  exists G, Gaussian2D 16 16 (fun _ j => coord 9 1 j) (fun i _ => coord 9 1 i) 1 1 0 = Ok G.
Proof.
  assert (N : npad (1 / 2) 16 = 4%nat) by (apply (npad_4 4); cbn; lra).
  assert (P : padded (Some (fun n => Nat.max n 24)) (1 / 2) 16 = 24%nat) by (unfold padded, axis_pad; rewrite N; reflexivity).
  assert (C : centre (Some (fun n => Nat.max n 24)) (1 / 2) 16 = 8%nat) by (unfold centre; rewrite P; unfold axis_pad; rewrite N; reflexivity).
  cbv zeta. rewrite P, C. split; [intros n; lia|split; [reflexivity|split; [reflexivity|split; [|split; [cbn; lra|split; [reflexivity|]]]]]].
  - unfold fits_axis. rewrite Rmax_left by lra. rewrite Rabs_R1. replace (INR 8 - (9 - 1)) with 0 by (cbn; lra). rewrite Rabs_R0. cbn. lra.
  - apply (gauss_ok _ _ _ _ _ _ _ 8 8 8 9); try lia; try lra; try congruence; unfold coord; rewrite Rmax_left by lra; cbn.
    + replace ((1 + 1 + 1 + 1 + 1 + 1 + 1 + 1 + 1 - 9) * 1 * ((1 + 1 + 1 + 1 + 1 + 1 + 1 + 1 + 1 - 9) * 1) + (1 + 1 + 1 + 1 + 1 + 1 + 1 + 1 + 1 - 9) * 1 * ((1 + 1 + 1 + 1 + 1 + 1 + 1 + 1 + 1 - 9) * 1)) with 0 by ring. rewrite sqrt_0. lra.
    + replace ((1 + 1 + 1 + 1 + 1 + 1 + 1 + 1 + 1 + 1 - 9) * 1 * ((1 + 1 + 1 + 1 + 1 + 1 + 1 + 1 + 1 + 1 - 9) * 1) + (1 + 1 + 1 + 1 + 1 + 1 + 1 + 1 + 1 - 9) * 1 * ((1 + 1 + 1 + 1 + 1 + 1 + 1 + 1 + 1 - 9) * 1)) with 1 by ring. rewrite sqrt_1. lra.
Qed.
(* 15 x 15 pixels: also padded to 24 x 24, centre one too far *)
Example C106_ex_odd : let fast := Some (fun n => Nat.max n 24) in
  padded fast (1 / 2) 15 = 24%nat /\ centre fast (1 / 2) 15 = 8%nat /\ Nat.odd 15 = true /\
  8 = INR (Nat.div 15 2) + 1 /\ fits_axis (5 * Rmax 1 1) (padded fast (1 / 2) 15) 15 (centre fast (1 / 2) 15) 8 1.
Proof.
  assert (N : npad (1 / 2) 15 = 3%nat) by (apply (npad_4 3); cbn; lra).
  assert (P : padded (Some (fun n => Nat.max n 24)) (1 / 2) 15 = 24%nat) by (unfold padded, axis_pad; rewrite N; reflexivity).
  assert (C : centre (Some (fun n => Nat.max n 24)) (1 / 2) 15 = 8%nat) by (unfold centre; rewrite P; unfold axis_pad; rewrite N; reflexivity).
  cbv zeta. rewrite P, C. split; [reflexivity|split; [reflexivity|split; [reflexivity|split; [cbn; lra|]]]].
  unfold fits_axis. rewrite Rmax_left by lra. rewrite Rabs_R1. replace (INR 8 - (8 - 1)) with 1 by (cbn; lra). rewrite Rabs_R1. cbn. lra.
Qed.
