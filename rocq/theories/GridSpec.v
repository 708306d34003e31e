(* Specification vocabulary for C65, C66, C70 and C71: placing an oversampled kernel on a grid *)
From Coq Require Import String Reals.
From Verif Require Import Prelude CRing CplxR GridModel.
Close Scope R_scope.
Open Scope nat_scope.

(* z is the integer nearest to x, the even one of two *)
Definition nearest (x : R) (z : Z) : Prop :=
  (Rabs (x - IZR z) < 1 / 2)%R \/ (Rabs (x - IZR z) = 1 / 2)%R /\ Z.even z = true.
(* z is x without its fractional part *)
Definition truncated (x : R) (z : Z) : Prop :=
  ((0 <= x -> IZR z <= x < IZR z + 1) /\ (x <= 0 -> IZR z - 1 < x <= IZR z))%R.
(* cell d is the nearest to position x of the grid, and the kernel has to be moved by f samples to be centred on x *)
Definition placed (os : nat) (x : R) (d f : Z) : Prop := nearest x d /\ truncated ((IZR d - x) * INR os)%R f.
(* value of a kernel of support W at cell y: the central sample is the one at os * ((W + 1) / 2), cells further than W / 2 from
   the nearest one get nothing *)
Definition tap (K : arr R) (W os : nat) (d f : Z) (y : nat) : R :=
  if (Z.abs (Z.of_nat y - d) <=? Z.of_nat (W / 2))%Z
  then K (Z.to_nat (Z.of_nat (os * ((W + 1) / 2)) + Z.of_nat os * (Z.of_nat y - d) + f))
  else 0%R.
(* position on the grid of a coordinate: zero is at cell npix // 2 *)
Definition position (npix : nat) (s : R) : R := (s + INR (npix / 2))%R.
(* all samples used for a placement *)
Definition all_taps (K : arr R) (W os : nat) (f : Z) : R := csum (K := RR) W (fun t => K (Z.to_nat (Z.of_nat os * (Z.of_nat t + 1) + f))).
(* those inside the grid *)
Definition taps_inside (K : arr R) (W os npix : nat) (d f : Z) : R := csum (K := RR) npix (tap K W os d f).
(* the kernel given by samples with one unit of padding on either side of the support *)
Definition kernel_of (K : arr R) (W os : nat) : kernel := {| samples := K; nsamples := os * (W + 2); width := W; oversampling := os |}.
(* sum over the cells of a grid *)
Definition over_grid (npix : nat) (f : nat -> nat -> RC) : RC := csum npix (fun y => csum npix (fun x => f y x)).
(* weighted sum of the cells under the kernel *)
Definition under_kernel (K : arr R) (W os npix : nat) (du fu dv fv : Z) (grid : arr2 RC) : RC :=
  over_grid npix (fun y x => cmul (ofR (tap K W os dv fv y * tap K W os du fu x)%R) (grid y x)).
(* grid coordinate of a baseline component x (same unit as the wavelength): cells of the Fourier plane of an image of npix pixels
   of the given size in arc seconds *)
Definition grid_coordinate (npix : nat) (cell lambda x : R) : R := (x / lambda * (INR npix * (cell / 3600 * (PI / 180))))%R.
(* the same arguments for another facet *)
Definition facet_at (a : setup) (f : R * R) : setup :=
  {| cell := cell a; image_centre := f; phase_centre := phase_centre a; kern := kern a; baseline := baseline a; phase := phase a;
     stokes_conversion := stokes_conversion a; convolution := convolution a |}.
(* sum over the rows and those channels mapped to band b *)
Definition over_band {K : cops} (nrow nchan : nat) (chanmap : arr nat) (b : nat) (f : nat -> nat -> K) : K :=
  csum nrow (fun r => csum nchan (fun c => if Nat.eqb (chanmap c) b then f r c else c0)).
(* neither baselines nor phases are changed *)
Definition no_policies (a : setup) : Prop := baseline a = "None"%string /\ (phase a = None \/ phase a = Some "None"%string).
