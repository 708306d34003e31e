(* What the theorems of C115 say. *)
From Coq Require Import Reals String.
From Verif Require Import Prelude CRing CplxR RimeSpec DftSpec RoundSpec RdftModel.
Open Scope R_scope.

(* cosines and sines with an absolute error of at most e *)
Definition trig_error (fcos fsin : R -> R) (e : R) : Prop := forall x, Rabs (fcos x - cos x) <= e /\ Rabs (fsin x - sin x) <= e.
(* the constant 2 pi / c as stored, with relative error uc *)
Definition constant_error (c uc : R) : Prop := Rabs (c - 2 * PI / light) <= uc * (2 * PI / light).
Definition above_horizon (lm : arr2 R) (s : nat) : Prop := lm s 0%nat * lm s 0%nat + lm s 1%nat * lm s 1%nat < 1.

(* the error of n - 1 for a source whose n is h: it grows towards the horizon *)
Definition n_error (u h : R) : R := (1 + u) ^ 2 * (2 * gamma u 3 / h) + gamma u 2.
(* the error of the phase, in radians: relative to the sizes of its three products, and what n contributes *)
Definition phase_error (u uc l m u' v w nu : R) : R :=
  2 * PI / light * Rabs nu *
  (((1 + uc) * (1 + u) ^ 5 - 1) * (Rabs (l * u') + Rabs (m * v) + Rabs (n1 l m * w)) +
   (1 + uc) * (1 + u) ^ 5 * (n_error u (1 + n1 l m) * Rabs w)).
(* and of its cosine and sine *)
Definition delay_error (u uc e : R) (lm uvw : arr2 R) (freq : arr R) (s r f : nat) : R :=
  e + phase_error u uc (lm s 0%nat) (lm s 1%nat) (uvw r 0%nat) (uvw r 1%nat) (uvw r 2%nat) (freq f).
(* x' differs from x by at most b in each part *)
Definition within (b : R) (x' x : R * R) : Prop := Rabs (fst x' - fst x) <= b /\ Rabs (snd x' - snd x) <= b.
