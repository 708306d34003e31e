(* What the theorems of C121 say. *)
From Coq Require Import Reals.
From Verif Require Import Prelude CRing CplxR DftSpec HogSpec CleanSpec.
Open Scope R_scope.

(* a point spread function that is one at its centre (n - 1, n - 1) and at most mu in size at every other distance that
   occurs in the image *)
Definition sidelobes (n : nat) (psf : arr2 R) (mu : R) : Prop :=
  psf (n - 1)%nat (n - 1)%nat = 1 /\
  forall x y p q, in_image n n x y -> in_image n n p q -> (x, y) <> (p, q) -> Rabs (psf (n - 1 + x - p)%nat (n - 1 + y - q)%nat) <= mu.
(* a sky of sources that are not negative, at some of the listed pixels *)
Definition sources_at (n : nat) (S : list (nat * nat)) (sky : arr2 R) : Prop :=
  forall x y, in_image n n x y -> 0 <= sky x y /\ (sky x y <> 0 -> In (x, y) S).
(* the sum of all pixels *)
Definition flux (n : nat) (a : arr2 R) : R := rsum n (fun x => rsum n (fun y => a x y)).
(* the gain is small enough for K sources and sidelobes mu; for one source the condition is gamma <= 1 *)
Definition gain_fits (K : nat) (mu gamma : R) : Prop :=
  0 <= gamma /\ gamma * ((1 - mu) * (1 + mu - mu * INR K)) <= 1 + mu - 2 * mu * INR K.

(* point sources on a flat pedestal of sidelobes *)
Definition pedestal_psf (n : nat) (mu : R) : arr2 R := fun x y => if (Nat.eqb x (n - 1) && Nat.eqb y (n - 1))%bool then 1 else mu.
(* sources in the first column of three pixels, and a beam that is wider than their distance *)
Definition wide_psf : arr2 R := fun x y => if Nat.eqb y 2 then nth x [7/10; 9/10; 1; 9/10; 7/10; 0] 0 else 0.
Definition pair_sky : arr2 R := fun x y => if (Nat.eqb y 0 && negb (Nat.eqb x 1))%bool then 1 else 0.
