(* What the theorems of C116 say. *)
From Coq Require Import Reals.
From Verif Require Import Prelude CRing CplxR DftSpec HogSpec.
Open Scope R_scope.

(* the inner product of two (n, n) images *)
Definition inner (n : nat) (a b : arr2 R) : R := rsum n (fun x => rsum n (fun y => a x y * b x y)).
Definition minus (a b : arr2 R) : arr2 R := fun x y => a x y - b x y.
(* a point spread function centred on pixel (n - 1, n - 1): the same on both sides of its centre, and such that no image has a
   response that points away from it *)
Definition symmetric (n : nat) (psf : arr2 R) : Prop :=
  forall x y p q, in_image n n x y -> in_image n n p q -> psf (n - 1 + x - p)%nat (n - 1 + y - q)%nat = psf (n - 1 + p - x)%nat (n - 1 + q - y)%nat.
Definition positive (n : nat) (psf : arr2 R) : Prop := forall z, 0 <= inner n z (spread n z psf).
(* how far the components C are from the sky, in the norm of the point spread function *)
Definition distance2 (n : nat) (psf sky C : arr2 R) : R := inner n (minus sky C) (spread n (minus sky C) psf).
(* the response of an interferometer that samples the sky at m points with weights w: a sum of cosines *)
Definition sampled_psf (n m : nat) (w a b : arr R) : arr2 R :=
  fun i j => rsum m (fun k => w k * cos (a k * (INR i - INR (n - 1)) + b k * (INR j - INR (n - 1)))).
(* the fraction of the dirty peak at which the run may stop; 1/5 if none is given *)
Definition fraction (threshold : option R) : R := match threshold with Some t => t | None => 2 / 10 end.
