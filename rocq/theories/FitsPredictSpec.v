(* What a user of predict_from_fits.py relies on. *)
From Coq Require Import Reals String.
From Verif Require Import Prelude CRing CplxR RimeSpec FitsPredictModel.
Open Scope R_scope.

(* direction cosines of column j and row i of the image, counted from zero *)
Definition column_l (h : fits_header) (j : nat) : R := (INR j + 1 - crpix1 h) * cdelt1 h * (PI / 180).
Definition row_m (h : fits_header) (i : nat) : R := (INR i + 1 - crpix2 h) * cdelt2 h * (PI / 180).
(* the image in memory order: band, row, column *)
Definition pixel (h : fits_header) (data : arr R) (k i j : nat) : R := data ((k * naxis2 h + i) * naxis1 h + j)%nat.
(* the header is in degrees, and has nband frequencies fr on axis 4 or 3 and one correlation on the other *)
Definition in_degrees (h : fits_header) : Prop := (cunit1 h = "DEG" \/ cunit1 h = "deg")%string /\ (cunit2 h = "DEG" \/ cunit2 h = "deg")%string.
Inductive bands (h : fits_header) : nat -> (nat -> R) -> Prop :=
| bands4 : ctype4 h = "FREQ"%string -> naxis3 h = 1%nat -> bands h (naxis4 h) (fun k => crval4 h + (INR k + 1 - crpix4 h) * cdelt4 h)
| bands3 : ctype4 h <> "FREQ"%string -> ctype3 h = "FREQ"%string -> naxis4 h = 1%nat -> bands h (naxis3 h) (fun k => crval3 h + (INR k + 1 - crpix3 h) * cdelt3 h).
(* pixel (i, j) of the brightness B is not zero in some channel; no pixel is alone *)
Definition lit (h : fits_header) (nchan : nat) (B : nat -> nat -> nat -> R) (i j : nat) : Prop :=
  (i < naxis2 h)%nat /\ (j < naxis1 h)%nat /\ exists f, (f < nchan)%nat /\ B f i j <> 0.
Definition not_alone (h : fits_header) (nchan : nat) (B : nat -> nat -> nat -> R) : Prop :=
  forall i j, lit h nchan B i j -> exists i' j', lit h nchan B i' j' /\ (i', j') <> (i, j).
(* the visibility of brightness B with column j at l j: sum over all pixels *)
Definition image_vis (h : fits_header) (B : nat -> nat -> nat -> R) (l : nat -> R) (uvw : arr2 R) (freq : arr R) (r f : nat) : RC :=
  csum (naxis2 h) (fun i => csum (naxis1 h) (fun j =>
    cmul (cis (- delay (l j) (row_m h i) (uvw r 0%nat) (uvw r 1%nat) (uvw r 2%nat) (freq f))) (ofR (B f i j)))).
(* the correlations of an unpolarised source *)
Definition unpolarised (ncorr : nat) (v : RC) (c : nat) : RC :=
  match ncorr, c with
  | 1%nat, 0%nat | 2%nat, 0%nat | 2%nat, 1%nat | 4%nat, 0%nat | 4%nat, 3%nat => v
  | _, _ => c0
  end.
(* y is, at x, on the line through the two neighbouring points of the grid g that enclose x, or the first two before the grid, or the last two after it *)
Definition interpolates (n : nat) (g v : nat -> R) (x y : R) : Prop :=
  forall k, (S k < n)%nat -> (k = 0%nat \/ g k <= x) -> (S (S k) = n \/ x <= g (S k)) -> y = v k + (x - g k) / (g (S k) - g k) * (v (S k) - v k).
