(* Execution of CUDA kernels whose threads communicate through shared memory, as far as the kernels of
   /repo/africanus/rime/cuda need it.  A launch has blocks of threads.  A thread runs straight line phases separated by
   barriers; a phase is a list of writes to the block's shared memory or to the output, each computed from the shared memory
   at that moment and from constant inputs.  Threads interleave in any order.  A barrier lets a thread go on once every thread
   of its group that has not left the kernel (kn_active) has reached it: the group is the block for __syncthreads and the warp
   where the code relies on the lockstep of a warp.  Shared memory and output start with arbitrary contents.  Loads that the
   hardware splits and memory ordering between barriers are not modelled: each write is atomic. *)
From Verif Require Import Prelude.
Open Scope nat_scope.

Definition name : Type := list nat.                  (* a place in shared memory or in the output *)
Definition name_eqb (x y : name) : bool := if list_eq_dec Nat.eq_dec x y then true else false.
Section Cuda.
  Context {V W : Type}.
  Inductive instr : Type :=
  | Share (l : name) (f : (name -> V) -> V)
  | Store (o : name) (f : (name -> V) -> W).
  Record kernel : Type := {
    kn_blocks : nat; kn_threads : nat;
    kn_phases : nat;
    kn_active : nat -> nat -> bool;                  (* block, thread: did not return at once *)
    kn_group : nat -> nat -> nat;                    (* barrier, thread: the group that meets there *)
    kn_code : nat -> nat -> nat -> list instr        (* phase, block, thread *)
  }.
  Record state : Type := {
    st_pc : nat -> nat -> nat * nat;                 (* block, thread: phase, instructions done in it *)
    st_shared : nat -> name -> V;
    st_out : name -> W
  }.
  Definition init (g : nat -> name -> V) (o : name -> W) : state := {| st_pc := fun _ _ => (0, 0); st_shared := g; st_out := o |}.
  Definition set_pc (pc : nat -> nat -> nat * nat) (b t : nat) (v : nat * nat) : nat -> nat -> nat * nat :=
    fun b' t' => if Nat.eqb b' b && Nat.eqb t' t then v else pc b' t'.
  Definition write {A} (m : name -> A) (l : name) (v : A) : name -> A := fun l' => if name_eqb l' l then v else m l'.
  (* one instruction of thread t of block b *)
  Definition perform (s : state) (b : nat) (i : instr) : (nat -> name -> V) * (name -> W) :=
    match i with
    | Share l f => (fun b' => if Nat.eqb b' b then write (st_shared s b) l (f (st_shared s b)) else st_shared s b', st_out s)
    | Store o f => (st_shared s, write (st_out s) o (f (st_shared s b)))
    end.
  Definition runs_thread (k : kernel) (b t : nat) : Prop := b < kn_blocks k /\ t < kn_threads k /\ kn_active k b t = true.
  (* thread u of block b has reached the barrier after phase p *)
  Definition reached (k : kernel) (s : state) (b u p : nat) : Prop :=
    p < fst (st_pc s b u) \/ st_pc s b u = (p, length (kn_code k p b u)).
  Inductive step (k : kernel) (s : state) : state -> Prop :=
  | step_exec b t p i ins : runs_thread k b t -> st_pc s b t = (p, i) -> p < kn_phases k -> nth_error (kn_code k p b t) i = Some ins ->
      step k s {| st_pc := set_pc (st_pc s) b t (p, S i); st_shared := fst (perform s b ins); st_out := snd (perform s b ins) |}
  | step_barrier b t p : runs_thread k b t -> st_pc s b t = (p, length (kn_code k p b t)) -> S p < kn_phases k ->
      (forall u, runs_thread k b u -> kn_group k p u = kn_group k p t -> reached k s b u p) ->
      step k s {| st_pc := set_pc (st_pc s) b t (S p, 0); st_shared := st_shared s; st_out := st_out s |}.
  Inductive runs (k : kernel) : nat -> state -> state -> Prop :=
  | runs_0 s : runs k 0 s s
  | runs_S n s s' s'' : runs k n s s' -> step k s' s'' -> runs k (S n) s s''.
  Definition finished (k : kernel) (s : state) : Prop :=
    forall b t, runs_thread k b t -> st_pc s b t = (kn_phases k - 1, length (kn_code k (kn_phases k - 1) b t)).
End Cuda.
Arguments instr : clear implicits.
Arguments kernel : clear implicits.
Arguments state : clear implicits.
