(* What the theorems of C118 say. *)
From Coq Require Import Reals.
From Verif Require Import Prelude CRing CplxR DftSpec.
Open Scope R_scope.

(* the directions of the pixels of an (n, n) image, row by row: pixel (x, y) at (l0 + x dl, m0 + y dm) *)
Definition grid_lm (n : nat) (l0 m0 dl dm : R) : arr2 R :=
  fun s k => match k with O => l0 + INR (s / n) * dl | S _ => m0 + INR (s mod n) * dm end.
(* the same for the point spread function of an (n, n) image: (2 n, 2 n) pixels with direction (0, 0) at (n - 1, n - 1) *)
Definition psf_lm (n : nat) (dl dm : R) : arr2 R := grid_lm (2 * n) (- (INR (n - 1) * dl)) (- (INR (n - 1) * dm)) dl dm.
(* channel f and correlation c of images that are stored row by row *)
Definition plane (n : nat) (im : arr3 R) (f c : nat) : arr2 R := fun x y => im (x * n + y)%nat f c.
Definition scaled (k : R) (a : arr2 R) : arr2 R := fun x y => a x y / k.
(* the number of rows of a channel without a flag *)
Definition kept_rows (nrows ncorr : nat) (flags : arr3 bool) (f : nat) : R :=
  rsum nrows (fun r => if existsb (fun c => flags r f c) (seq 0 ncorr) then 0 else 1).
