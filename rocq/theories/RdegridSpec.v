(* What the theorems of C128 say. *)
From Coq Require Import Reals.
From Verif Require Import Prelude CRing CplxR DftSpec GridModel GridSpec.
Close Scope R_scope.
Open Scope nat_scope.

(* sum of the cells of a grid times the kernel *)
Definition kernel_sum (K : arr R) (W os npix : nat) (du fu dv fv : Z) (f : arr2 R) : R :=
  rsum npix (fun y => rsum npix (fun x => (tap K W os dv fv y * tap K W os du fu x * f y x)%R)).
