(* What a launch of the CUDA conversion may do, and the polarisations it treats as real or complex. *)
From Coq Require Import String Permutation.
From Verif Require Import Prelude CohModel CohSpec.
Open Scope nat_scope.

(* the groups of a launch run in some order *)
Definition any_order (order : nat -> list nat) : Prop := forall n, Permutation (order n) (seq 0 n).
Definition CORRELATIONS : list string := (LINEAR ++ CIRCULAR)%list.
Definition power_of_two (n : nat) : Prop := exists k, n = 2 ^ k.
(* the schema has an element with one of the names *)
Definition some_of (t : sch) (ns : list string) : Prop := exists idx s, at_ t idx s /\ In s ns.
(* the pairs of inputs an output is computed from *)
Open Scope string_scope.
Definition recipes : list (string * list (string * string)) :=
  [("XX", [("I", "Q")]); ("XY", [("U", "V")]); ("YX", [("U", "V")]); ("YY", [("I", "Q")]);
   ("RR", [("I", "V")]); ("RL", [("Q", "U")]); ("LR", [("Q", "U")]); ("LL", [("I", "V")]);
   ("I", [("XX", "YY"); ("RR", "LL")]); ("Q", [("XX", "YY"); ("RL", "LR")]);
   ("U", [("XY", "YX"); ("RL", "LR")]); ("V", [("XY", "YX"); ("RR", "LL")])].
Definition producible (is : sch) (s : string) : Prop :=
  exists pairs p q, In (s, pairs) recipes /\ In (p, q) pairs /\ (exists i, at_ is i p) /\ (exists j, at_ is j q).
