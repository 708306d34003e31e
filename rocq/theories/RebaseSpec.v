(* Specification vocabulary for C103. *)
From Verif Require Import Prelude PredictModel PredictSpec CalModel CalSpec RebaseModel.
Open Scope nat_scope.

Definition finished (th : thread) : Prop := t_pc th = PDone.
(* bin by bin, the rows the thread went through are the rows of the bin *)
Definition right_rows (n : nat) (tbi : arr Z) (tmin : Z) (cnt : arr nat) (th : thread) : Prop :=
  length (t_ranges th) = n /\
  forall t r, t < n -> ((fst (nth t (t_ranges th) (0, 0)%Z) <= r < snd (nth t (t_ranges th) (0, 0)%Z))%Z <->
                        (exists k, r = Z.of_nat k /\ in_bin tbi tmin cnt t k)).
(* the number of steps of a thread *)
Definition steps_to_rebase (n : nat) : nat := (n + 1) + (2 * n + 1).
Definition steps_in_all (n : nat) : nat := steps_to_rebase n + (2 * n + 1).
(* the user's array after k computations with the same chunks *)
Definition after_runs (k : nat) (chunks : list nat) (tbi : arr Z) : arr Z := Nat.iter k (left_behind chunks) tbi.
(* schedules in blocks: each of the threads 0 .. K-1 takes k steps, one thread after the other *)
Definition rounds (K k : nat) : list nat := flat_map (fun i => repeat i k) (seq 0 K).
(* all threads find the minimum, then all subtract it, then all go through the rows *)
Definition racing (K n : nat) : list nat := rounds K (n + 1) ++ rounds K (2 * n + 1) ++ rounds K (2 * n + 1).
