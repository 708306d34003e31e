(* What the theorems of C114 say. *)
From Coq Require Import Reals.
From Verif Require Import Prelude AvgModel AvgModel2 AvgSpec AvgSpec2 RavgModel.
Open Scope R_scope.

(* exact sum and mean over a list *)
Definition total {A} (f : A -> R) (l : list A) : R := fold_right (fun a s => f a + s) 0 l.
Definition mean {A} (f : A -> R) (l : list A) : R := total f l / INR (length l).

(* the samples that an output cell is the average of: the unflagged ones, or all when all are flagged *)
Definition averaged {K} (n nchan : nat) (rmap cmap : arr nat) (flag_row oflag : option (arr Z)) (x : chan_cols K) (r f c : nat)
  (l : list (nat * nat)) : Prop :=
  let here i ch := rmap i = r /\ cmap ch = f /\ contributes flag_row oflag i r in
  l <> [] /\
  (ascending2 n nchan (fun i ch => here i ch /\ ~ sample_flagged K x i ch c) l \/
   ascending2 n nchan (fun i ch => here i ch /\ ~ sample_flagged K x i ch c) [] /\
   ascending2 n nchan (fun i ch => here i ch /\ sample_flagged K x i ch c) l).

(* one sample, with its weight or without *)
Definition one_sample (fl : R -> R) (v : R * R) (w : option R) : chan_cols (rounded_cols fl) :=
  Build_chan_cols (rounded_cols fl) None (Some (fun _ _ _ => v)) None (option_map (fun w _ _ _ => w) w) None.
