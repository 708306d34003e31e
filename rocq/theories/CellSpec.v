(* What a user of estimate_cell_size relies on. *)
From Coq Require Import Reals.
From Verif Require Import Prelude CellModel.
Open Scope R_scope.

(* x is one of the numbers of the argument *)
Inductive among (x : R) : arg_num -> Prop :=
| among_arr n a i : (i < n)%nat -> x = a i -> among x (Arr n a)
| among_flt : among x (Flt x).
(* the least and the greatest modulus of an argument, the least of its numbers *)
Definition is_largest (u : arg_num) (m : R) : Prop := (exists x, among x u /\ m = Rabs x) /\ forall x, among x u -> Rabs x <= m.
Definition is_least (u : arg_num) (m : R) : Prop := (exists x, among x u /\ m = Rabs x) /\ forall x, among x u -> m <= Rabs x.
Definition is_shortest (w : arg_num) (m : R) : Prop := among m w /\ forall x, among x w -> m <= x.
(* arcseconds to radians *)
Definition radians (a : R) : R := a / 3600 * (PI / 180).
(* the condition of the documentation: cell times pixels at most the shortest wavelength over the least coordinate *)
Definition documented (cell n wave least : R) : Prop := cell * n <= wave / least.
