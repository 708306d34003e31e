(* What the theorems of C123 say. *)
From Coq Require Import Reals.
From Verif Require Import Prelude CRing CplxR RimeModel RimeSpec DftSpec.
Open Scope R_scope.

(* n * n baselines in a plane that sample, for an image of (n, n) pixels of size dl by dm, every spatial frequency once: baseline
   (a, b) turns by a / n per pixel in l and by b / n per pixel in m *)
Definition full_coverage (n : nat) (freq dl dm : R) (uvw : arr2 R) : Prop :=
  forall a b, (a < n)%nat -> (b < n)%nat ->
    freq * uvw (a * n + b)%nat 0%nat * dl * INR n = light * INR a /\
    freq * uvw (a * n + b)%nat 1%nat * dm * INR n = light * INR b /\ uvw (a * n + b)%nat 2%nat = 0.
Definition no_flags (nrows ncorr : nat) (flags : arr3 bool) (f : nat) : Prop := forall r c, (r < nrows)%nat -> (c < ncorr)%nat -> flags r f c = false.
