(* Vocabulary for C88: cubic splines. *)
From Coq Require Import QArith QArith.Qcanon.
From Verif Require Import Prelude SplineModel.
Close Scope Q_scope. Close Scope Qc_scope.
Open Scope nat_scope.

Definition increasing (n : nat) (x : arr Qc) : Prop := forall i, S i < n -> (x i < x (S i))%Qc.

(* the value (order 0) or derivative (order 1, 2) of a spline at one point: a query holding just that point *)
Definition value (s : spline) (order : Z) (p : Qc) : Qc :=
  match evaluate_spline s 1 (fun _ => p) order with Ok v => v 0 | Raise _ => 0%Qc end.

(* p lies on piece k of the n knots x; the first piece goes on to the left *)
Definition on_piece (n : nat) (x : arr Qc) (k : nat) (p : Qc) : Prop :=
  S k < n /\ (k = 0 \/ (x k <= p)%Qc) /\ (p < x (S k))%Qc.

(* the first derivative reaches knot k without a jump: from any point p of the piece before it, adding the integral of
   the (linear) second derivative gives the first derivative at the knot *)
Definition slope_meets (s : spline) (x : arr Qc) (k : nat) (p : Qc) : Prop :=
  (value s 1 (x k) = value s 1 p + (x k - p) * ((value s 2 p + value s 2 (x k)) / qz 2))%Qc.

Definition gap (x : arr Qc) (k : nat) : Qc := (x (S k) - x k)%Qc.
Definition secant (x y : arr Qc) (k : nat) : Qc := ((y (S k) - y k) / gap x k)%Qc.
(* the equation between the second derivatives m at three neighbouring knots, the middle one being S k, that every
   twice continuously differentiable cubic spline satisfies *)
Definition moment_equation (x y m : arr Qc) (k : nat) : Prop :=
  (gap x k * m k + qz 2 * (gap x k + gap x (S k)) * m (S k) + gap x (S k) * m (S (S k)) =
   qz 6 * (secant x y (S k) - secant x y k))%Qc.

(* the pairs of left and right boundary types that are accepted *)
Definition types_ok (left_type right_type : Z) : Prop := left_type = 1%Z \/ left_type = 2%Z /\ right_type = 2%Z.
(* values, first and second derivatives *)
Definition good_order (o : Z) : Prop := o = 0%Z \/ o = 1%Z \/ o = 2%Z.

(* boundary conditions that the line of slope al satisfies: no second derivative, or the slope al.  When the slope is given on the
   right, the memory behind the array must hold zero. *)
Definition line_ends (al lv rv st : Qc) (lt rt : Z) : Prop :=
  (lt = 2%Z /\ lv = 0%Qc /\ rt = 2%Z /\ rv = 0%Qc) \/ (lt = 1%Z /\ lv = al /\ (rt = 2%Z /\ rv = 0%Qc \/ rt <> 2%Z /\ rv = al /\ st = 0%Qc)).
