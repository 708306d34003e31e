From Coq Require Import Reals.
From Verif Require Import Prelude CRing CplxR.
Open Scope R_scope.

(* speed of light *)
Definition light : R := 299792458.
(* the third direction cosine, relative to the phase centre *)
Definition n1 (l m : R) : R := sqrt (1 - l * l - m * m) - 1.
(* 2 pi nu / c (l u + m v + (n - 1) w) *)
Definition delay (l m u v w nu : R) : R := 2 * PI * nu / light * (l * u + m * v + n1 l m * w).

(* 2x2 matrices over the complex numbers *)
Definition m22 : Type := arr2 RC.
Definition mmul (a b : m22) : m22 := fun i j => cadd (cmul (a i 0%nat) (b 0%nat j)) (cmul (a i 1%nat) (b 1%nat j)).
Definition mH (a : m22) : m22 := fun i j => cconj (a j i).
Definition m_id : m22 := fun i j => if Nat.eqb i j then c1 else c0.
Definition mdet (a : m22) : RC := csub (cmul (a 0%nat 0%nat) (a 1%nat 1%nat)) (cmul (a 0%nat 1%nat) (a 1%nat 0%nat)).
Definition meq (a b : m22) : Prop := forall i j, (i < 2)%nat -> (j < 2)%nat -> a i j = b i j.
(* change of basis from linear to circular feeds: 1/sqrt 2 [[1, i], [1, -i]] *)
Definition lin_circ : m22 := fun i j =>
  match i, j with
  | O, O => (/ sqrt 2, 0) | O, _ => (0, / sqrt 2)
  | _, O => (/ sqrt 2, 0) | _, _ => (0, - / sqrt 2)
  end.
(* rotation of a point of the plane *)
Definition rot_l (x l m : R) : R := l * cos x - m * sin x.
Definition rot_m (x l m : R) : R := l * sin x + m * cos x.
