(* Specification vocabulary for the data averaging properties C11-C17. *)
From Coq Require Import Sorting.Sorted.
From Verif Require Import Prelude AvgModel AvgModel2 AvgSpec.

(* l lists, in increasing order, exactly the i < n with P i *)
Definition ascending (n : nat) (P : nat -> Prop) (l : list nat) : Prop :=
  StronglySorted Nat.lt l /\ forall i, In i l <-> i < n /\ P i.

(* l lists, in (row, channel) order, exactly the pairs in range with P *)
Definition pair_lt (p q : nat * nat) : Prop :=
  fst p < fst q \/ (fst p = fst q /\ snd p < snd q).
Definition ascending2 (n nchan : nat) (P : nat -> nat -> Prop) (l : list (nat * nat)) : Prop :=
  StronglySorted pair_lt l /\
  forall i ch, In (i, ch) l <-> i < n /\ ch < nchan /\ P i ch.

(* left to right sum of f over a list *)
Definition lsum {A V} (add : V -> V -> V) (zero : V) (f : A -> V) (l : list A) : V :=
  fold_left (fun s a => add s (f a)) l zero.

(* row i may contribute to output row o: same flag (or no flags at all) *)
Definition contributes (flag_row oflag : option (arr Z)) (i o : nat) : Prop :=
  match flag_row, oflag with Some f, Some g => f i = g o | _, _ => True end.

Section Cells.
  Context (K : farith).
  (* the weight of sample (row, channel, correlation): the weight spectrum if there
     is one, else the row weight, else unweighted *)
  Definition sample_weight (x : chan_cols K) (i ch co : nat) : option (fnum K) :=
    match in_wspec K x, in_rweight K x with
    | Some w, _ => Some (w i ch co)
    | None, Some w => Some (w i co)
    | None, None => None
    end.
  Definition weight_or_1 (o : option (fnum K)) : fnum K :=
    match o with Some w => w | None => f1 K end.
  Definition weighted (v : cnum K) (o : option (fnum K)) : cnum K :=
    match o with Some w => cscale K v w | None => v end.
  Definition sq (v : fnum K) : fnum K := fmul K v v.
  Definition weighted2 (s : fnum K) (o : option (fnum K)) : fnum K :=
    match o with Some w => fmul K (sq s) (sq w) | None => sq s end.
  Definition sample_flagged (x : chan_cols K) (i ch co : nat) : Prop :=
    match in_flag K x with Some f => f i ch co <> 0%Z | None => False end.
End Cells.

(* a commutative monoid *)
Record comm_monoid {V} (add : V -> V -> V) (zero : V) : Prop := {
  cm_assoc : forall x y z, add (add x y) z = add x (add y z);
  cm_comm : forall x y, add x y = add y x;
  cm_zero : forall x, add zero x = x
}.

(* extents of the supplied arrays, in argument order *)
Definition present {A} (l : list (option A)) : list A :=
  flat_map (fun o => match o with Some a => [a] | None => [] end) l.
(* some extent differs from an earlier non-zero one *)
Definition extents_conflict (l : list nat) : Prop :=
  exists l1 a l2 b l3, l = l1 ++ a :: l2 ++ b :: l3 /\ a <> 0 /\ a <> b.
(* d is the common extent: the only non-zero value, or 0 if there is none *)
Definition common_extent (l : list nat) (d : nat) : Prop :=
  (d = 0 \/ In d l) /\ forall e, In e l -> e = 0 \/ e = d.

(* every cell of row r is flagged *)
Definition row_all_flagged (nchan ncorr : nat) (flag : arr3 Z) (r : nat) : Prop :=
  forall f c, f < nchan -> c < ncorr -> flag r f c <> 0%Z.

(* all pairs (i, j) with i < n, j < m *)
Definition all_pairs (n m : nat) : list (nat * nat) := list_prod (seq 0 n) (seq 0 m).
