(* Specification vocabulary for measures of hulls *)
From Coq Require Import Reals.
From Verif Require Import Prelude GeomModel GeomSpec.
Open Scope R_scope.

(* sum of f over the sides of a closed polygon *)
Fixpoint walk (f : pt -> pt -> R) (first : pt) (c : list pt) : R :=
  match c with
  | [] => 0
  | [p] => f p first
  | p :: (q :: _) as r => f p q + walk f first r
  end.
Definition around (f : pt -> pt -> R) (c : list pt) : R := match c with [] => 0 | p :: _ => walk f p c end.
Definition distance (p q : pt) : R := sqrt (Rsqr (IZR (fst p) - IZR (fst q)) + Rsqr (IZR (snd p) - IZR (snd q))).
Definition perimeter (c : list pt) : R := around distance c.
(* area of the triangle o p q *)
Definition triangle (o p q : pt) : R :=
  Rabs ((IZR (fst p) - IZR (fst o)) * (IZR (snd q) - IZR (snd o)) - (IZR (fst q) - IZR (fst o)) * (IZR (snd p) - IZR (snd o))) / 2.
(* area of a convex polygon that has o inside or on its border *)
Definition enclosed (o : pt) (c : list pt) : R := around (triangle o) c.
Definition inside (c : list pt) (o : pt) : Prop := forall p q, is_edge c p q -> right_or_on p q o.
(* a convex polygon, clockwise *)
Definition clockwise (c : list pt) : Prop := forall o, In o c -> inside c o.
Definition shift (dx dy : Z) (p : pt) : pt := ((fst p + dx)%Z, (snd p + dy)%Z).
Definition swap (p : pt) : pt := (snd p, fst p).
(* not all corners lie on one line *)
Definition solid (c : list pt) : Prop := exists p q s, In p c /\ In q c /\ In s c /\
  ((fst q - fst p) * (snd s - snd p) - (snd q - snd p) * (fst s - fst p) <> 0)%Z.
(* total of the values of f over a list *)
Definition total {A} (f : A -> R) (l : list A) : R := fold_right (fun a t => f a + t) 0 l.
(* the corners of a box, clockwise, from any of them on *)
Definition box_corners (xl xu yl yu : Z) (c : list pt) : Prop :=
  exists a b : list pt, [(xl, yl); (xl, yu); (xu, yu); (xu, yl)] = a ++ b /\ c = b ++ a.
(* the mean of a list of integers *)
Definition average (l : list Z) : R := total IZR l / INR (length l).
