(* The few NumPy primitives that the modelled code calls. *)
From Verif Require Import Prelude.

(* np.argsort(data, kind='mergesort') (NumPy, called from
   /repo/africanus/averaging/support.py:24 and
   /repo/africanus/averaging/time_and_channel_mapping.py:297): the stable
   ascending sort of the indices 0..n-1 by data.  SIMPLIFICATION: the result of
   a stable sort is unique, so insertion sort stands for NumPy's merge sort. *)
Section Argsort.
  Context {A : Type} (ltb : A -> A -> bool).

  Fixpoint insert_idx (key : arr A) (i : nat) (l : list nat) : list nat :=
    match l with
    | [] => [i]
    | j :: r => if ltb (key j) (key i) then j :: insert_idx key i r else i :: l
    end.

  Definition argsort (n : nat) (key : arr A) : list nat :=
    fold_right (insert_idx key) [] (seq 0 n).
End Argsort.

(* x[mask] for a boolean mask of the same length (NumPy boolean indexing). *)
Fixpoint select {A} (mask : list bool) (l : list A) : list A :=
  match mask, l with
  | true :: m, x :: r => x :: select m r
  | false :: m, _ :: r => select m r
  | _, _ => []
  end.

(* np.diff on an integer vector. *)
Fixpoint diff (l : list nat) : list nat :=
  match l with
  | x :: ((y :: _) as r) => (y - x) :: diff r
  | _ => []
  end.
