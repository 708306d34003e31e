(* What the theorems of C122 say. *)
From Coq Require Import Reals.
From Verif Require Import Prelude CRing CplxR DftSpec HogSpec RoundSpec.
Open Scope R_scope.

(* a rounding mode: the relative error is at most u < 1, order is kept, and rounding twice is rounding once *)
Definition rounding (fl : R -> R) (u : R) : Prop :=
  roundoff fl u /\ u < 1 /\ (forall x y, x <= y -> fl x <= fl y) /\ (forall x, fl (fl x) = fl x).
(* the pixels are machine numbers *)
Definition machine (fl : R -> R) (n : nat) (a : arr2 R) : Prop := forall x y, in_image n n x y -> fl (a x y) = a x y.
(* the size of a point spread function *)
Definition absolute (psf : arr2 R) : arr2 R := fun x y => Rabs (psf x y).
(* what k cycles can lose at a pixel of value d that the components reach with total strength a *)
Definition cycle_loss (u : R) (k : nat) (d a : R) : R := gamma u k * Rabs d + (gamma u k + gamma u (S k)) / (1 - u) ^ k * a.
