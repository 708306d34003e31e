(* Specification vocabulary for C64: directions on the sphere *)
From Coq Require Import Reals.
From Verif Require Import Prelude CoordModel.
Open Scope R_scope.

Definition vec : Type := R * R * R.
Definition dot (a b : vec) : R := let '(a1, a2, a3) := a in let '(b1, b2, b3) := b in a1 * b1 + a2 * b2 + a3 * b3.
(* unit vector of a direction, and the eastward and northward unit vectors there *)
Definition direction (ra dec : R) : vec := (cos dec * cos ra, cos dec * sin ra, sin dec).
Definition east (ra : R) : vec := (- sin ra, cos ra, 0).
Definition north (ra dec : R) : vec := (- (sin dec * cos ra), - (sin dec * sin ra), cos dec).
(* the phase centre; without one, right ascension and declination zero *)
Definition centre (pc : option (R * R)) : R * R := match pc with Some c => c | None => (0, 0) end.
