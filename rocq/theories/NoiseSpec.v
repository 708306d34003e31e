(* What the theorems of C125 say. *)
From Coq Require Import Reals.
From Verif Require Import Prelude CRing CplxR DftSpec HogSpec CleanSpec IsoSpec.
Open Scope R_scope.

(* an image within eps of the response of the sky *)
Definition noisy_image (n : nat) (psf sky : arr2 R) (eps : R) (dirty : arr2 R) : Prop :=
  forall x y, in_image n n x y -> Rabs (dirty x y - spread n sky psf x y) <= eps.
(* what is left of the strength of a source above the sidelobes of K sources, when the fraction gamma is taken *)
Definition margin (K : nat) (mu gamma : R) : R := 1 + mu - 2 * mu * INR K - gamma * ((1 - mu) * (1 + mu - mu * INR K)).
(* the gain fits the sidelobes, and the threshold is far enough above the noise *)
Definition stands_out (K : nat) (mu gamma eps thr : R) : Prop :=
  0 <= gamma /\ 0 <= margin K mu gamma /\ (1 + mu) * eps <= margin K mu gamma * thr.
(* the visibilities of a channel and correlation, where they are used, are within eps of the true ones *)
Definition noisy_vis (nrows ncorr : nat) (flags : arr3 bool) (f c : nat) (eps : R) (V W : arr3 RC) : Prop :=
  forall r, (r < nrows)%nat -> ~ flagged ncorr flags r f -> (re (W r f c) - re (V r f c)) ^ 2 + (im (W r f c) - im (V r f c)) ^ 2 <= eps ^ 2.
