(* Specification vocabulary for the averaging properties.  Nothing here
   mentions the algorithms of the model; only the record of arithmetic
   operations [arith] is shared with it. *)
From Coq Require Import Sorting.Sorted.
From Verif Require Import Prelude AvgModel.

(* Strict total order given by a boolean test. *)
Record order {A : Type} (lt : A -> A -> bool) : Prop := {
  ord_irrefl : forall x, lt x x = false;
  ord_trans : forall x y z, lt x y = true -> lt y z = true -> lt x z = true;
  ord_total : forall x y, lt x y = false -> lt y x = false -> x = y
}.

(* What is assumed of the floating point arithmetic: only that comparison is a
   strict total order and that != is disequality (no NaNs, one zero). *)
Record arith_ok (F : arith) : Prop := {
  aok_order : order (ltb F);
  aok_neq : forall x y, neqb F x y = true <-> x <> y
}.

(* k is the number of i < n satisfying P *)
Definition count_is (n : nat) (P : nat -> Prop) (k : nat) : Prop :=
  exists l, NoDup l /\ (forall i, In i l <-> i < n /\ P i) /\ length l = k.

Definition is_int32 (z : Z) : Prop := (- 2 ^ 31 <= z < 2 ^ 31)%Z.
Definition int32_col (n : nat) (a : arr Z) : Prop := forall i, i < n -> is_int32 (a i).

(* rows i and j belong to the same baseline *)
Definition same_baseline (ant1 ant2 : arr Z) (i j : nat) : Prop :=
  ant1 i = ant1 j /\ ant2 i = ant2 j.

(* no two rows share time and baseline *)
Definition rows_distinct {T} (n : nat) (time : arr T) (ant1 ant2 : arr Z) : Prop :=
  forall i j, i < n -> j < n -> time i = time j -> same_baseline ant1 ant2 i j -> i = j.

(* left-to-right floating point sum and mean of a column over a list of rows *)
Definition col_sum (F : arith) (col : arr (num F)) (l : list nat) : num F :=
  fold_left (add F) (map col l) (zero F).
Definition col_mean (F : arith) (col : arr (num F)) (l : list nat) : num F :=
  divn F (col_sum F col l) (length l).

(* np.finfo(dtype).max exceeds every mean of distinct rows *)
Definition sentinel_above (F : arith) (n : nat) (time : arr (num F)) : Prop :=
  forall l, l <> [] -> NoDup l -> (forall r, In r l -> r < n) ->
    ltb F (col_mean F time l) (sentinel F) = true.

(* l lists exactly the rows below n that satisfy P, in increasing time order *)
Definition rows_by_time (F : arith) (n : nat) (time : arr (num F)) (P : nat -> Prop)
           (l : list nat) : Prop :=
  StronglySorted (fun i j => ltb F (time i) (time j) = true) l /\
  forall i, In i l <-> i < n /\ P i.

(* start and end of the interval a row was integrated over *)
Definition row_start (F : arith) (time interval : arr (num F)) (r : nat) : num F :=
  sub F (time r) (half F (interval r)).
Definition row_end (F : arith) (time interval : arr (num F)) (r : nat) : num F :=
  add F (time r) (half F (interval r)).

(* r0 is an earliest row of the baseline of r *)
Definition earliest (F : arith) (n : nat) (time : arr (num F)) (ant1 ant2 : arr Z)
           (r0 r : nat) : Prop :=
  r0 < n /\ same_baseline ant1 ant2 r0 r /\
  forall j, j < n -> same_baseline ant1 ant2 j r -> ltb F (time j) (time r0) = false.
