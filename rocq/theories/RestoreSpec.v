(* What the clean beam and the restored model should be. *)
From Coq Require Import Reals.
From Verif Require Import Prelude CRing CplxR FftFacts RestoreModel.
Open Scope R_scope.

(* sums of reals *)
Notation rsum := (csum (K := RR)).

(* an elliptical Gaussian at (x, y): major axis turned by t, exponent -k (u^2/major^2 + v^2/minor^2) in the turned coordinates *)
Definition ellipse (k major minor t x y : R) : R :=
  exp (- k * (Rsqr ((x * cos t - y * sin t) / major) + Rsqr ((x * sin t + y * cos t) / minor))).
(* the beam the script uses: cut off at five times the larger width *)
Definition clean_beam (s0 s1 pa x y : R) : R :=
  if Rle_dec (sqrt (x * x + y * y)) (5 * Rmax s0 s1) then ellipse fwhm_conv (Rmax s0 s1) (Rmin s0 s1) (90 + pa) x y else 0.
(* coordinates of an image axis: pixel j (from 0) of an axis with reference pixel ref (from 1) and step d *)
Definition coord (ref d : R) (j : nat) : R := (INR j + 1 - ref) * d.

(* length of a padded axis and the pixel of the kernel image that is taken as its centre *)
Definition padded (fast : option (nat -> nat)) (frac : R) (n : nat) : nat := (n + (fst (axis_pad fast frac n) + snd (axis_pad fast frac n)))%nat.
Definition centre (fast : option (nat -> nat)) (frac : R) (n : nat) : nat := (Nat.div (padded fast frac n) 2 - fst (axis_pad fast frac n))%nat.
(* next_fast_len never returns less than it is given *)
Definition fast_ok (fast : option (nat -> nat)) : Prop := match fast with Some f => forall n, (n <= f n)%nat | None => True end.

(* the FFT convolution: every model pixel i and kernel pixel j land on pixel k with i + j = k + centre, up to whole turns *)
Definition lands (m c i j k : nat) : bool := Nat.eqb (Nat.modulo (i + j) m) (Nat.modulo (k + c) m).
Definition circular (m1 m2 c1 c2 n1 n2 : nat) (x g : arr2 R) (k1 k2 : nat) : R :=
  rsum n1 (fun i1 => rsum n2 (fun i2 => rsum n1 (fun j1 => rsum n2 (fun j2 =>
    if lands m1 c1 i1 j1 k1 && lands m2 c2 i2 j2 k2 then x i1 i2 * g j1 j2 else 0)))).
(* the restored image: every model pixel replaced by a copy of a beam, displaced by (o1, o2) pixels *)
Definition restored (n1 n2 : nat) (beam : R -> R -> R) (o1 o2 : R) (x : arr2 R) (k1 k2 : nat) : R :=
  rsum n1 (fun i1 => rsum n2 (fun i2 => x i1 i2 * beam (INR k1 - INR i1 + o1) (INR k2 - INR i2 + o2))).

(* exactly one pixel of an (n1, n2) image satisfies p *)
Definition lone (n1 n2 : nat) (p : nat -> nat -> bool) : Prop :=
  exists i j, (i < n1)%nat /\ (j < n2)%nat /\ p i j = true /\ forall i' j', (i' < n1)%nat -> (j' < n2)%nat -> p i' j' = true -> i' = i /\ j' = j.
(* the beam fits: its cut-off radius lies inside the image along an axis of n pixels with reference pixel ref and step d,
   and inside the padding of the padded axis of m pixels, c being the pixel taken as the centre *)
Definition fits_axis (radius : R) (m n c : nat) (ref d : R) : Prop :=
  radius <= (ref - 1) * Rabs d /\ radius <= (INR n - ref) * Rabs d /\ radius + Rabs (INR c - (ref - 1)) * Rabs d < (INR m - INR n + 1) * Rabs d.
(* a model with one bright pixel *)
Definition point_source (flux : R) (p1 p2 : nat) : arr2 R := fun i j => if (i =? p1)%nat && (j =? p2)%nat then flux else 0.
