(* Specification vocabulary for the CUDA kernels (C93, C94) *)
From Verif Require Import Prelude CudaModel.
Open Scope nat_scope.

(* From this state, however the threads interleave: the launch ends after a bounded number of steps, never gets stuck before, and
   when it has ended each output that spec names holds that value and the others what o says. *)
Definition leaves {V W} (k : kernel V W) (start : state V W) (o : name -> W) (spec : name -> option W) : Prop :=
  (exists bound, forall n s, runs k n start s -> n <= bound) /\
  forall n s, runs k n start s ->
    (finished k s \/ exists s', step k s s') /\
    (finished k s -> forall x, st_out s x = match spec x with Some w => w | None => o x end).
(* Whatever the contents of the memories at the start; outputs not named are untouched. *)
Definition computes {V W} (k : kernel V W) (spec : name -> option W) : Prop := forall g o, leaves k (init g o) o spec.
