(* What the theorems of C127 say. *)
From Coq Require Import Reals.
From Verif Require Import Prelude CRing CplxR DftSpec GridModel GridSpec RoundSpec.
Close Scope R_scope.
Open Scope nat_scope.

(* every visibility has its place: the cell and the sample of the kernel along u and v *)
Definition all_placed (os npix nrow nchan : nat) (s : arr2 R) (d f : nat -> nat -> Z) : Prop :=
  forall r c, r < nrow -> c < nchan -> placed os (position npix (s r c)) (d r c) (f r c).
(* what the gridder is to add up in a cell of a band, for one part of the complex numbers, and its weight *)
Definition cell_sum (K : arr R) (W os nrow nchan : nat) (chanmap : arr nat) (du fu dv fv : nat -> nat -> Z) (s : arr2 R) (b y x : nat) : R :=
  over_band (K := RR) nrow nchan chanmap b (fun r c => (tap K W os (dv r c) (fv r c) y * tap K W os (du r c) (fu r c) x * s r c)%R).
Definition weight_sum (K : arr R) (W os nrow nchan : nat) (chanmap : arr nat) (fu fv : nat -> nat -> Z) (b : nat) : R :=
  over_band (K := RR) nrow nchan chanmap b (fun r c => (all_taps K W os (fv r c) * all_taps K W os (fu r c))%R).
(* the same with all terms taken positive *)
Definition positive (K : arr R) : arr R := fun i => Rabs (K i).
Definition parts (part : RC -> R) (s : arr2 RC) : arr2 R := fun r c => part (s r c).
Definition sizes_of (s : arr2 R) : arr2 R := fun r c => Rabs (s r c).
(* the relative error of a quotient whose numerator and denominator have the relative error g *)
Definition quotient_error (u g : R) : R := ((1 + u) * (2 * g / (1 - g)) + u)%R.
