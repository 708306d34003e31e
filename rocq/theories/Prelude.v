(* Shared modelling vocabulary: exceptions as values, counted loops and
   functional arrays.  Nothing in this file models a particular function of
   /repo; it only fixes how Python/Numba constructs are rendered. *)
From Coq Require Export List Arith ZArith Lia Bool.
Export ListNotations.

(* Python exceptions that the modelled code raises. *)
Inductive exn : Type :=
| ValueError
| TypeError
| IndexError
| KeyError
| NameError
| AttributeErrorExn
| AssertionError
| ZeroDivision
| NotImplementedError
| RuntimeError
| ImportErrorExn
| MissingPackage
| PytestSkip
| RowMapperError
| ZeroFilledBin        (* RowChannelAverageException("Zero-filled bin") *)
| DimensionInvalid     (* conversion.py: DimensionMismatch *)
| MissingConversion    (* conversion.py: MissingConversionInputs *)
| UserExn (tag : nat). (* an exception raised by user supplied code *)

(* Result of a computation that may raise. *)
Inductive res (A : Type) : Type :=
| Ok (a : A)
| Raise (e : exn).
Arguments Ok {A} a.
Arguments Raise {A} e.

Definition bind {A B} (x : res A) (f : A -> res B) : res B :=
  match x with Ok a => f a | Raise e => Raise e end.
Notation "'do!' x <- e ; f" := (bind e (fun x => f))
  (at level 200, x pattern, e at level 100, f at level 200).

(* for k in range(n): s = body(k, s) *)
Fixpoint for_ {S : Type} (n : nat) (body : nat -> S -> S) (s : S) : S :=
  match n with
  | O => s
  | S k => body k (for_ k body s)
  end.

(* the same loop when the body may raise (the first raise ends the loop) *)
Fixpoint forM {S : Type} (n : nat) (body : nat -> S -> res S) (s : S) : res S :=
  match n with
  | O => Ok s
  | S k => bind (forM k body s) (body k)
  end.

(* Arrays: total functions on indices; the extent is carried separately. *)
Definition arr (A : Type) := nat -> A.
Definition arr2 (A : Type) := nat -> nat -> A.
Definition arr3 (A : Type) := nat -> nat -> nat -> A.

Definition upd {A} (f : arr A) (i : nat) (v : A) : arr A :=
  fun j => if Nat.eqb j i then v else f j.
Definition upd2 {A} (f : arr2 A) (i j : nat) (v : A) : arr2 A :=
  fun a b => if Nat.eqb a i && Nat.eqb b j then v else f a b.
Definition upd3 {A} (f : arr3 A) (i j k : nat) (v : A) : arr3 A :=
  fun a b c => if Nat.eqb a i && Nat.eqb b j && Nat.eqb c k then v else f a b c.

(* A Python list seen as an array (used by examples only). *)
Definition of_list {A} (d : A) (l : list A) : arr A := fun i => nth i l d.
Definition of_list2 {A} (d : A) (l : list (list A)) : arr2 A :=
  fun i j => nth j (nth i l []) d.
Definition of_list3 {A} (d : A) (l : list (list (list A))) : arr3 A :=
  fun i j k => nth k (nth j (nth i l []) []) d.
Definition to_list {A} (n : nat) (f : arr A) : list A := map f (seq 0 n).
