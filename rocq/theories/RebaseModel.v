(* Model of the rebasing of time_bin_indices that corrupt_vis, correct_vis, residual_vis, compute_and_corrupt_vis and the
   phase-only functions do in place, when several threads run the compiled function on the same array.  The dask
   wrappers (calibration/utils/dask.py:59-71, 119-132, 166-177, 216-228) give one and the same block of
   time_bin_indices to the tasks of all chunks of channels, da.from_array hands out views of the user's array, and the
   functions release the GIL (nogil=True).
   A step of a thread is one read or one write of the array; everything else in the functions is local to the task and
   is left out.  The numbering of lines is that of utils/corrupt_vis.py; the other functions have the same statements
   (correct_vis.py:80-91, residual_vis.py:74-81, compute_and_corrupt_vis.py:88-96, phase_only.py:39-52, 85-96, 125-136). *)
From Verif Require Import Prelude PredictModel CalModel.
Open Scope nat_scope.

(* Where a thread is: *)
Inductive pc : Type :=
| PMin (i : nat) (m : Z)             (* line 70, time_bin_indices.min(): elements below i are read, m is their minimum *)
| PSubR (i : nat) (m : Z)            (* line 70, -=: elements below i are done *)
| PSubW (i : nat) (m : Z) (v : Z)    (*   element i has been read as v *)
| PUse (t : nat)                     (* lines 76-78: bins below t are done *)
| PUse2 (t : nat) (lo : Z)           (*   range(lo, time_bin_indices[t] + time_bin_counts[t]) *)
| PDone.
(* a thread and the ranges of rows it went through, bin by bin *)
Record thread : Type := { t_pc : pc; t_ranges : list (Z * Z) }.
Definition fresh : thread := {| t_pc := PMin 0 0; t_ranges := [] |}.

(* one step of a thread on the array x with n elements *)
Definition step (n : nat) (cnt : arr nat) (x : arr Z) (th : thread) : arr Z * thread :=
  let go p := {| t_pc := p; t_ranges := t_ranges th |} in
  match t_pc th with
  | PMin i m => if Nat.ltb i n then (x, go (PMin (S i) (if Nat.eqb i 0 then x i else Z.min m (x i)))) else (x, go (PSubR 0 m))
  | PSubR i m => if Nat.ltb i n then (x, go (PSubW i m (x i))) else (x, go (PUse 0))
  | PSubW i m v => (upd x i (v - m)%Z, go (PSubR (S i) m))
  | PUse t => if Nat.ltb t n then (x, go (PUse2 t (x t))) else (x, go PDone)
  | PUse2 t lo => (x, {| t_pc := PUse (S t); t_ranges := t_ranges th ++ [(lo, (x t + Z.of_nat (cnt t))%Z)] |})
  | PDone => (x, th)
  end.
(* threads on one array; a schedule is the list of the threads that take the steps *)
Definition system : Type := (arr Z * (nat -> thread))%type.
Definition sys_step (n : nat) (cnt : arr nat) (s : system) (i : nat) : system :=
  let '(x', th') := step n cnt (fst s) (snd s i) in (x', upd (snd s) i th').
Definition exec (n : nat) (cnt : arr nat) (sched : list nat) (s : system) : system := fold_left (sys_step n cnt) sched s.
(* all threads are about to call the function *)
Definition start (tbi : arr Z) : system := (tbi, fun _ => fresh).

(* what the blocks of a chunked call leave in the user's array: each block of times is rebased (line 70) *)
Fixpoint left_behind (chunks : list nat) (tbi : arr Z) : arr Z :=
  match chunks with
  | [] => tbi
  | c :: cs => fun t => if Nat.ltb t c then (tbi t - zmin c tbi)%Z else left_behind cs (shift c tbi) (t - c)
  end.
