(* Specification vocabulary for C68 and C69 *)
From Coq Require Import Reals.
From Verif Require Import Prelude CoordSpec.
Open Scope R_scope.

(* direction cosines of a direction in the frame of a phase centre: eastward, northward, outward *)
Definition lcos (ra0 dec0 ra dec : R) : R := dot (direction ra dec) (east ra0).
Definition mcos (ra0 dec0 ra dec : R) : R := dot (direction ra dec) (north ra0 dec0).
Definition ncos (ra0 dec0 ra dec : R) : R := dot (direction ra dec) (direction ra0 dec0).
(* the matrix T (RA, D) of the documentation of uvw_rotate *)
Definition T (ra dec : R) : arr2 R := fun i j =>
  match i, j with
  | 0%nat, 0%nat => cos ra | 0%nat, 1%nat => - sin ra | 0%nat, _ => 0
  | 1%nat, 0%nat => - (sin dec * sin ra) | 1%nat, 1%nat => - (sin dec * cos ra) | 1%nat, _ => cos dec
  | _, 0%nat => cos dec * sin ra | _, 1%nat => cos dec * cos ra | _, _ => sin dec
  end.
(* product of a matrix with the transpose of another *)
Definition mul_t (a b : arr2 R) : arr2 R := fun i j => a i 0%nat * b j 0%nat + a i 1%nat * b j 1%nat + a i 2%nat * b j 2%nat.
Definition identity : arr2 R := fun i j => if Nat.eqb i j then 1 else 0.
(* the w term of the interferometer phase as a function of the direction cosines, in turns *)
Definition path (u v w l m : R) : R := u * l + v * m + w * sqrt (1 - l * l - m * m).
