(* Model of /repo/africanus/util/{shapes,cuda,jinja2,code,requirements}.py *)
From Coq Require Import String.
From Verif Require Import Prelude.
Open Scope nat_scope.

(* ------------------------------------------------------------------ *)
(* /repo/africanus/util/shapes.py:4-69 aggregate_chunks                  *)

(* One chunk tuple per dimension.  Chunk sizes and maxima are naturals. *)
Fixpoint map2 {A B C} (f : A -> B -> C) (l : list A) (m : list B) : list C :=
  match l, m with
  | a :: l', b :: m' => f a b :: map2 f l' m'
  | _, _ => []
  end.

(* (agg_chunks, agg_chunk_counts) *)
Definition agg_state : Type := (list (list nat) * list nat)%type.

(* Lines 45-60: one iteration of the loop over chunk positions. *)
Definition agg_step (chunks : list (list nat)) (maxs : list nat) (di : nat) (s : agg_state)
  : agg_state :=
  let '(agg, counts) := s in
  let cur := map (fun c => nth di c 0) chunks in
  let scratch := map2 Nat.add counts cur in
  if existsb (fun b => b) (map2 (fun x m => Nat.ltb m x) scratch maxs)
  then (map2 (fun a c => a ++ [c]) agg counts, cur)
  else (agg, scratch).

(* Lines 33-67, the sequence form.  Line 36 reads chunks[0] (IndexError when there
   are no dimensions); line 65 reads the loop variable di, which is unbound when the
   tuples are empty (NameError). *)
Definition aggregate_core (chunks : list (list nat)) (maxs : list nat)
  : res (list (list nat)) :=
  if negb (Nat.eqb (length chunks) (length maxs)) then Raise ValueError
  else match chunks with
       | [] => Raise IndexError
       | c0 :: _ =>
           if negb (forallb (fun c => Nat.eqb (length c0) (length c)) chunks)
           then Raise ValueError
           else
             let '(agg, counts) :=
               for_ (length c0) (agg_step chunks maxs)
                    (map (fun _ => []) maxs, map (fun _ => 0) maxs) in
             if Nat.eqb (length c0) 0 then Raise NameError
             else Ok (map2 (fun a c => a ++ [c]) agg counts)
       end.

(* The return value: a flat tuple for one dimension (line 69). *)
Inductive agg_out : Type := Flat (l : list nat) | Nested (l : list (list nat)).
Inductive agg_in : Type :=
| Single (chunks : list nat) (max : nat)                    (* max_chunks is an int *)
| Many (chunks : list (list nat)) (maxs : list nat).

Definition aggregate_chunks (a : agg_in) : res agg_out :=
  let '(chunks, maxs) :=
    match a with Single c m => ([c], [m]) | Many c m => (c, m) end in   (* 27-29 *)
  do! l <- aggregate_core chunks maxs;
  Ok (match maxs, l with [_], x :: _ => Flat x | _, _ => Nested l end).  (* 31, 69 *)

(* ------------------------------------------------------------------ *)
(* /repo/africanus/util/shapes.py:72-111 corr_shape                      *)
Definition corr_shape (ncorr : Z) (shape : string) : res (list Z) :=
  if String.eqb shape "flat" then Ok [ncorr]
  else if String.eqb shape "matrix" then
    if Z.eqb ncorr 1 then Ok [1%Z]
    else if Z.eqb ncorr 2 then Ok [2%Z]
    else if Z.eqb ncorr 4 then Ok [2%Z; 2%Z]
    else Raise ValueError
  else Raise ValueError.

(* ------------------------------------------------------------------ *)
(* /repo/africanus/util/cuda.py:73-97 grids                              *)
(* Python's // is floor division, i.e. Z.div; b = 0 raises. *)
Fixpoint grids_loop (dims blocks : list Z) : res (list Z) :=
  match dims, blocks with
  | d :: ds, b :: bs =>
      if Z.eqb b 0 then Raise ZeroDivision
      else do! r <- grids_loop ds bs; Ok ((d + b - 1) / b :: r)%Z
  | _, _ => Ok []
  end.
Definition grids (dims blocks : list Z) : res (list Z) :=
  if negb (Nat.eqb (length dims) 3) then Raise ValueError
  else if negb (Nat.eqb (length blocks) 3) then Raise ValueError
  else grids_loop dims blocks.

(* ------------------------------------------------------------------ *)
(* /repo/africanus/util/jinja2.py:7-62 register_assign_cycles            *)

(* A Python dict with nat keys in insertion order; popitem takes the LAST entry. *)
Definition dict : Type := list (nat * nat).
Fixpoint dget (d : dict) (k : nat) : option nat :=
  match d with
  | [] => None
  | (a, v) :: r => if Nat.eqb a k then Some v else dget r k
  end.
Fixpoint ddel (d : dict) (k : nat) : dict :=
  match d with
  | [] => []
  | (a, v) :: r => if Nat.eqb a k then r else (a, v) :: ddel r k
  end.
(* d[k] = v keeps the position of an existing key *)
Fixpoint dset (d : dict) (k v : nat) : dict :=
  match d with
  | [] => [(k, v)]
  | (a, w) :: r => if Nat.eqb a k then (a, v) :: r else (a, w) :: dset r k v
  end.

(* Line 33: Python's % with a positive modulus is Z.modulo; N > 0 here. *)
Definition rot_src (N : nat) (case : Z) (n : nat) : nat :=
  Z.to_nat ((Z.of_nat N - case + Z.of_nat n) mod Z.of_nat N)%Z.

(* src.index(d): position of the first occurrence, ValueError if absent *)
Fixpoint index_of (l : list nat) (d i : nat) : res nat :=
  match l with
  | [] => Raise ValueError
  | a :: r => if Nat.eqb a d then Ok i else index_of r d (S i)
  end.

(* Lines 48-58: follow the chain from key k; [fuel] bounds the number of pops (the
   dict shrinks at each one).  [first] is cycle[0][0].  Returns the pairs appended. *)
Fixpoint follow (fuel : nat) (deps : dict) (first k : nat) : res (list (nat * nat) * dict) :=
  match fuel with
  | O => Raise AssertionError
  | S f =>
      match dget deps k with
      | None => if Nat.eqb k first then Ok ([], deps) else Raise AssertionError  (* 55 *)
      | Some v =>
          do! p <- follow f (ddel deps k) first v;
          Ok ((k, v) :: fst p, snd p)
      end
  end.

(* Lines 44-60 *)
Fixpoint cycles_loop (fuel : nat) (deps : dict) : res (list (list (nat * nat))) :=
  match fuel with
  | O => Raise AssertionError
  | S f =>
      match rev deps with
      | [] => Ok []
      | (k, v) :: rest =>
          do! p <- follow (S (length deps)) (rev rest) k v;
          do! cs <- cycles_loop f (snd p);
          Ok (((k, v) :: fst p) :: cs)
      end
  end.

Definition register_assign_cycles (N : nat) (case : Z) : res (list (list (nat * nat))) :=
  let src := map (rot_src N case) (seq 0 N) in
  let deps := fold_left (fun d p => if Nat.eqb (fst p) (snd p) then d
                                    else dset d (fst p) (snd p))
                        (combine (seq 0 N) src) [] in           (* line 35 *)
  do! deps <- forM N (fun di deps =>
                        do! si <- index_of src di 0;
                        Ok (if Nat.ltb di si then dset deps si di else deps)) deps;  (* 37-40 *)
  cycles_loop (S (length deps)) deps.

(* How the kernel template uses a cycle: /repo/africanus/rime/cuda/macros.j2:139-148,
   for the thread whose case_id is [case]:  tmp = var[cstart];  then for (dest, src)
   in the cycle  var[dest] = (src == cstart ? tmp : var[src]). *)
Definition run_cycle {A} (cycle : list (nat * nat)) (a : arr A) : arr A :=
  match cycle with
  | [] => a
  | (cstart, _) :: _ =>
      let tmp := a cstart in
      fold_left (fun a p => upd a (fst p) (if Nat.eqb cstart (snd p) then tmp else a (snd p)))
                cycle a
  end.
Definition run_cycles {A} (cycles : list (list (nat * nat))) (a : arr A) : arr A :=
  fold_left (fun a c => run_cycle c a) cycles a.

(* /repo/africanus/rime/cuda/macros.j2:112-161 warp_transpose, for a group of
   N = var_length threads, [v t c] being register c of thread t.  x & (N-1) is
   rendered x mod N (the macro's lengths are powers of two, where they agree);
   __shfl_sync(mask, x, addr, N) reads x of thread addr of the group. *)
Definition shuffle {A} (N : nat) (addr0 : nat -> nat) (next : nat -> nat) (v : arr2 A) : arr2 A :=
  fst (for_ N (fun c (s : arr2 A * (nat -> nat)) =>
                 let '(v, addr) := s in
                 ((fun t c' => if Nat.eqb c' c then v (addr t) c else v t c'),
                  (if Nat.eqb (S c) N then addr else fun t => addr (next t)))) (v, addr0)).
Definition vertical {A} (N : nat) (v : arr2 A) : res (arr2 A) :=
  forM N (fun case v =>
            do! cs <- register_assign_cycles N (Z.of_nat case);
            Ok (fun t => if Nat.eqb t case then run_cycles cs (v t) else v t)) v.
Definition warp_transpose {A} (N : nat) (v : arr2 A) : res (arr2 A) :=
  if Nat.ltb 1 N then
    let v1 := shuffle N (fun t => t) (fun t => (t + 1) mod N) v in
    do! v2 <- vertical N v1;
    Ok (shuffle N (fun t => (N - t) mod N) (fun t => (t + (N - 1)) mod N) v2)
  else Ok v.

(* ------------------------------------------------------------------ *)
(* /repo/africanus/util/code.py:12-23 SingletonMixin.instance            *)

(* Classes are numbered; [parent] gives the base class (single inheritance).  The
   private attribute is looked up along the chain of base classes (Python attribute
   lookup) and assigned on cls itself.  Class 0 is SingletonMixin, whose own
   attribute is None initially.  Objects are numbered in construction order; the
   lock is the one shared attribute of the mixin. *)
Inductive s_pc : Type :=
| SIdle                          (* not called yet *)
| SCheck                         (* line 18 *)
| SAcquire                       (* line 19 *)
| SCheck2                        (* line 20, lock held *)
| SConstruct                     (* line 21, lock held *)
| SRelease                       (* leaving the with block *)
| SRead                          (* line 23 *)
| SDone (o : option nat).        (* returned this value; None is Python's None *)

Record s_state : Type := {
  s_attr : nat -> option nat;    (* class -> attribute set on that class *)
  s_made : list nat;             (* classes of the objects constructed so far, newest
                                    first: object number k is the k-th constructed *)
  s_lock : option nat;           (* holder *)
  s_pcs : nat -> s_pc
}.

Section Singleton.
  (* parent: strictly smaller class number; truthy: bool() of each object;
     cls_of: the class thread t calls instance() on *)
  Context (parent : nat -> option nat) (truthy : nat -> bool) (cls_of : nat -> nat).

  Fixpoint lookup (fuel : nat) (attr : nat -> option nat) (c : nat) : option nat :=
    match attr c with
    | Some o => Some o
    | None => match fuel, parent c with
              | S f, Some p => lookup f attr p
              | _, _ => None
              end
    end.
  Definition cls_attr (s : s_state) (c : nat) : option nat := lookup c (s_attr s) c.
  Definition is_set (s : s_state) (c : nat) : bool :=
    match cls_attr s c with Some o => truthy o | None => false end.

  Definition set_pc (s : s_state) (t : nat) (p : s_pc) : s_state :=
    {| s_attr := s_attr s; s_made := s_made s; s_lock := s_lock s; s_pcs := upd (s_pcs s) t p |}.
  Definition set_lock (s : s_state) (l : option nat) : s_state :=
    {| s_attr := s_attr s; s_made := s_made s; s_lock := l; s_pcs := s_pcs s |}.

  (* One atomic step of thread t; None when t cannot move (blocked or finished). *)
  Definition s_step (s : s_state) (t : nat) : option s_state :=
    let c := cls_of t in
    match s_pcs s t with
    | SIdle => Some (set_pc s t SCheck)
    | SCheck => Some (set_pc s t (if is_set s c then SRead else SAcquire))
    | SAcquire => match s_lock s with
                  | None => Some (set_pc (set_lock s (Some t)) t SCheck2)
                  | Some _ => None
                  end
    | SCheck2 => Some (set_pc s t (if is_set s c then SRelease else SConstruct))
    | SConstruct =>
        Some (set_pc {| s_attr := upd (s_attr s) c (Some (length (s_made s)));
                        s_made := c :: s_made s; s_lock := s_lock s; s_pcs := s_pcs s |}
                     t SRelease)
    | SRelease => Some (set_pc (set_lock s None) t SRead)
    | SRead => Some (set_pc s t (SDone (cls_attr s c)))
    | SDone _ => None
    end.

  Definition s_init : s_state :=
    {| s_attr := fun _ => None; s_made := []; s_lock := None; s_pcs := fun _ => SIdle |}.
  (* an execution: threads scheduled in the given order (a blocked thread stutters) *)
  Definition s_run (sched : list nat) : s_state :=
    fold_left (fun s t => match s_step s t with Some s' => s' | None => s end) sched s_init.
End Singleton.

(* ------------------------------------------------------------------ *)
(* /repo/africanus/util/code.py:100-117 memoize_on_key                   *)

(* Keys are naturals (the result of key_fn), values abstract.  A call is
   identified by a number; [m_script] style nondeterminism of the wrapped function:
   the outcome of its n-th execution is given by an oracle. *)
Section Memoize.
  Context {V : Type}.

  Inductive m_pc : Type :=
  | MIdle
  | MWait (key : nat)                     (* line 110: acquiring the lock *)
  | MLookup (key : nat)                   (* line 112, lock held *)
  | MCompute (key : nat)                  (* line 114, running fn, lock held *)
  | MRelease (key : nat) (r : res V).     (* leaving the with block *)

  (* observable events, newest first *)
  Inductive m_event : Type :=
  | EvCall (t key : nat)                  (* thread t calls wrapper(...) *)
  | EvRun (t key : nat) (r : res V)       (* fn executed by t, with this outcome *)
  | EvRet (t key : nat) (r : res V).      (* t's call ended with this outcome *)

  Record m_state : Type := {
    m_cache : nat -> option V;
    m_lock : option nat;
    m_pcs : nat -> m_pc;
    m_log : list m_event
  }.

  Definition m_init : m_state :=
    {| m_cache := fun _ => None; m_lock := None; m_pcs := fun _ => MIdle; m_log := [] |}.

  (* What thread t does next: [act] supplies the key when it starts a call and the
     outcome when fn finishes. *)
  Record m_act : Type := { act_thread : nat; act_key : nat; act_out : res V }.

  Definition m_step (s : m_state) (a : m_act) : m_state :=
    let t := act_thread a in
    match m_pcs s t with
    | MIdle => {| m_cache := m_cache s; m_lock := m_lock s;
                  m_pcs := upd (m_pcs s) t (MWait (act_key a));
                  m_log := EvCall t (act_key a) :: m_log s |}
    | MWait k => match m_lock s with
                 | None => {| m_cache := m_cache s; m_lock := Some t;
                              m_pcs := upd (m_pcs s) t (MLookup k); m_log := m_log s |}
                 | Some _ => s
                 end
    | MLookup k =>
        {| m_cache := m_cache s; m_lock := m_lock s;
           m_pcs := upd (m_pcs s) t
                        (match m_cache s k with
                         | Some v => MRelease k (Ok v) | None => MCompute k end);
           m_log := m_log s |}
    | MCompute k =>
        {| m_cache := match act_out a with
                      | Ok v => upd (m_cache s) k (Some v) | Raise _ => m_cache s end;
           m_lock := m_lock s;
           m_pcs := upd (m_pcs s) t (MRelease k (act_out a));
           m_log := EvRun t k (act_out a) :: m_log s |}
    | MRelease k r =>
        {| m_cache := m_cache s; m_lock := None;
           m_pcs := upd (m_pcs s) t MIdle;
           m_log := EvRet t k r :: m_log s |}
    end.

  Definition m_run (acts : list m_act) : m_state := fold_left m_step acts m_init.
End Memoize.

(* ------------------------------------------------------------------ *)
(* /repo/africanus/util/requirements.py:12-151 requires_optional         *)

Inductive requirement : Type :=
| RNone
| RImportError (msg : string)
| RPkg (name : string)
| RForce                          (* force_missing_pkg_exception *)
| ROther.                         (* anything else *)

Record env : Type := {
  on_rtd : bool;                  (* READTHEDOCS set *)
  importable : string -> bool;    (* importlib.import_module succeeds *)
  in_pytest : bool;               (* africanus.util.testing marker, read at call time *)
  have_pytest : bool              (* import pytest succeeds, at call time *)
}.

(* The decorated function. *)
Inductive decorated : Type :=
| Original                                   (* fn itself *)
| PassStub                                   (* does nothing, returns None *)
| FailStub (honour_marker : bool) (missing : list string) (errs : list string).

Record req_state : Type := {
  rq_have : bool; rq_missing : list string; rq_honour : bool; rq_errs : list string
}.

(* Lines 88-111 *)
Definition req_step (e : env) (s : req_state) (r : requirement) : res req_state :=
  match r with
  | RNone => Ok s
  | RImportError m => Ok {| rq_have := rq_have s; rq_missing := rq_missing s;
                            rq_honour := rq_honour s; rq_errs := rq_errs s ++ [m] |}
  | RPkg p =>
      if importable e p then Ok s
      else Ok {| rq_have := false; rq_missing := rq_missing s ++ [p];
                 rq_honour := rq_honour s; rq_errs := rq_errs s |}
  | RForce => Ok {| rq_have := rq_have s; rq_missing := rq_missing s;
                    rq_honour := false; rq_errs := rq_errs s |}
  | ROther => Raise TypeError
  end.
Definition req_scan (e : env) (reqs : list requirement) : res req_state :=
  fold_left (fun s r => do! s' <- s; req_step e s' r) reqs
            (Ok {| rq_have := true; rq_missing := []; rq_honour := true; rq_errs := [] |}).

Definition requires_optional (e : env) (reqs : list requirement) : res decorated :=
  if on_rtd e then Ok PassStub                                            (* 72-79 *)
  else
    do! s <- req_scan e reqs;
    if rq_have s && negb (Nat.eqb (length (rq_errs s)) 0)
    then Raise ImportErrorExn                                             (* 115-120 *)
    else Ok (if rq_have s then Original                                   (* 124-125 *)
             else FailStub (rq_honour s) (rq_missing s) (rq_errs s)).

(* What calling the decorated function does (lines 128-147); the message lists the
   missing packages and the user supplied errors (lines 12-20). *)
Inductive call_effect : Type :=
| RunsOriginal
| ReturnsNone
| Skips (missing errs : list string)
| Missing (missing errs : list string)       (* MissingPackageException *)
| NoPytest.                                  (* ImportError: pytest missing *)

Definition call_decorated (e : env) (d : decorated) : call_effect :=
  match d with
  | Original => RunsOriginal
  | PassStub => ReturnsNone
  | FailStub honour missing errs =>
      if honour && in_pytest e
      then if have_pytest e then Skips missing errs else NoPytest
      else Missing missing errs
  end.
