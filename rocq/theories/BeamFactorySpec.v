(* What a user of beam_factory relies on. *)
From Coq Require Import Reals String ZArith.
From Verif Require Import Prelude AxesModel.
Open Scope R_scope.

(* n points from -1.5 to 1.5 degrees at equal distances, in radians *)
Definition sky_grid (n : nat) (g : arr R) : Prop :=
  g 0%nat = - (3 / 2) * (PI / 180) /\ g (n - 1)%nat = 3 / 2 * (PI / 180) /\
  forall i, (S i < n)%nat -> g (S i) - g i = 3 / INR (n - 1) * (PI / 180).
(* the beam of the Westerbork telescope at a frequency in Hertz *)
Definition westerbork (f l m : R) : R := cos (Rmin (65 * (f / 1000000000) * sqrt (l * l + m * m)) (10881 / 10000)) ^ 3.
(* 33 frequencies from a to b, increasing, none further from the regular grid than d *)
Definition jittered (a b d : R) (g : arr R) : Prop :=
  g 0%nat = a /\ g 32%nat = b /\ (forall i, (i < 32)%nat -> g i <= g (S i)) /\
  forall i, (i <= 32)%nat -> Rabs (g i - (a + INR i * ((b - a) / 32))) <= d.
