(* Specification vocabulary for C44-C46 *)
From Coq Require Import Reals.
From Verif Require Import Prelude CRing CplxR.
Open Scope R_scope.

Definition in_image (nx ny x y : nat) : Prop := (x < nx /\ y < ny)%nat.
(* v is the largest (smallest) value of the image *)
Definition is_max (nx ny : nat) (a : arr2 R) (v : R) : Prop :=
  (exists x y, in_image nx ny x y /\ a x y = v) /\ forall x y, in_image nx ny x y -> a x y <= v.
Definition is_min_of (nx ny : nat) (a : arr2 R) (v : R) : Prop :=
  (exists x y, in_image nx ny x y /\ a x y = v) /\ forall x y, in_image nx ny x y -> v <= a x y.
(* (x, y) comes after (p, q) in row-major order *)
Definition later (p q x y : nat) : Prop := (p < x \/ (p = x /\ q < y))%nat.
(* (p, q) is the last position with value v *)
Definition last_with (nx ny : nat) (a : arr2 R) (v : R) (p q : nat) : Prop :=
  in_image nx ny p q /\ a p q = v /\ forall x y, in_image nx ny x y -> later p q x y -> a x y <> v.

(* the components convolved with a point spread function centred on pixel (n - 1, n - 1) of its (2n, 2n) image *)
Definition spread (n : nat) (clean psf : arr2 R) (x y : nat) : R :=
  csum (K := RR) n (fun p => csum (K := RR) n (fun q => clean p q * psf (n - 1 + x - p)%nat (n - 1 + y - q)%nat)).
(* one minor cycle: the fraction gamma of the peak v at (p, q) becomes a component, and its response is subtracted *)
Definition minor_cycle (n : nat) (psf : arr2 R) (gamma v : R) (p q : nat) (C R C' R' : arr2 R) : Prop :=
  (forall x y, C' x y = (if (Nat.eqb x p && Nat.eqb y q)%bool then C x y + gamma * v else C x y)) /\
  (forall x y, in_image n n x y -> R' x y = R x y - gamma * v * psf (n - 1 + x - p)%nat (n - 1 + y - q)%nat).
(* the limit on the number of cycles: three times the width of the image by default *)
Definition niter_of (n : nat) (niter : option Z) : Z := match niter with Some k => k | None => (3 * Z.of_nat n)%Z end.
(* the whole run: the images C i and R i after i cycles; each cycle works on the last pixel holding the largest
   (signed) value, which exceeds thr in absolute value *)
Definition clean_run (n : nat) (psf : arr2 R) (gamma thr : R) (k : nat) (C R : nat -> arr2 R) : Prop :=
  forall i, (i < k)%nat -> exists v p q, is_max n n (R i) v /\ last_with n n (R i) v p q /\ thr < Rabs v /\
    minor_cycle n psf gamma v p q (C i) (R i) (C (S i)) (R (S i)).
(* a point spread function that is one at its centre and zero elsewhere *)
Definition point_psf (p q : nat) : arr2 R := fun x y => if (Nat.eqb x p && Nat.eqb y q)%bool then 1 else 0.

(* an elliptical Gaussian on a constant level: (x0, y0) is its centre, and its axes of widths s1 and s2 are turned by the
   angle theta from those of x and y *)
Definition ellipse (level peak x0 y0 s1 s2 theta x y : R) : R :=
  let u := (x - x0) * cos theta - (y - y0) * sin theta in
  let v := (x - x0) * sin theta + (y - y0) * cos theta in
  level + peak * exp (- ((u / s1) ^ 2 + (v / s2) ^ 2) / 2).
(* the pixels that reach half of the peak *)
Definition main_lobe (peak : R) (psf : arr2 R) : arr2 R := fun i j => if Rle_dec (peak / 2) (psf i j) then psf i j else 0.
