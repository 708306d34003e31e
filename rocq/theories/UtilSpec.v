(* Specification vocabulary for properties C18-C25 and C78. *)
From Coq Require Import String.
From Verif Require Import Prelude UtilModel.

(* consecutive runs of l with the given lengths *)
Fixpoint cut {A} (gs : list nat) (l : list A) : list (list A) :=
  match gs with
  | [] => []
  | g :: r => firstn g l :: cut r (skipn g l)
  end.

(* [gs]: how many original chunks each aggregate consists of, the same grouping for
   every dimension *)
Record aggregation (chunks : list (list nat)) (maxs : list nat) (n : nat) (gs : list nat) : Prop := {
  (* all n original chunks are used, in order *)
  ag_cover : list_sum gs = n;
  (* an aggregate is within the maximum, or is one original chunk *)
  ag_fit : forall d c mx s, nth_error chunks d = Some c -> nth_error maxs d = Some mx ->
             In s (cut gs c) -> list_sum s <= mx \/ length s = 1;
  (* the first chunk of the next aggregate would have exceeded some maximum *)
  ag_greedy : forall k, S k < length gs ->
     exists d c mx s1 s2, nth_error chunks d = Some c /\ nth_error maxs d = Some mx /\
       nth_error (cut gs c) k = Some s1 /\ nth_error (cut gs c) (S k) = Some s2 /\
       mx < list_sum s1 + hd 0 s2;
  (* an aggregate of no chunks is the very first one, and only if the first original
     chunk exceeds some maximum *)
  ag_empty : forall k, nth_error gs k = Some 0 ->
     k = 0 /\ exists d c mx, nth_error chunks d = Some c /\ nth_error maxs d = Some mx /\ mx < hd 0 c
}.

(* product of a shape tuple *)
Definition shape_size (l : list Z) : Z := fold_right Z.mul 1%Z l.

(* consecutive pairs of a cycle chain: source of each is destination of the next, the
   last source is the first destination *)
Fixpoint chained (l : list (nat * nat)) (first : nat) : Prop :=
  match l with
  | [] => True
  | [(_, v)] => v = first
  | (_, v) :: (((k', _) :: _) as r) => v = k' /\ chained r first
  end.
Definition is_cycle (l : list (nat * nat)) : Prop :=
  match l with [] => False | (k, _) :: _ => chained l k end.

(* ---- class hierarchies, for SingletonMixin ---- *)
Inductive ancestor (parent : nat -> option nat) : nat -> nat -> Prop :=
| anc_self c : ancestor parent c c
| anc_step c p a : parent c = Some p -> ancestor parent a p -> ancestor parent a c.
(* no class on which instance() is called derives from another such class *)
Definition unrelated (parent : nat -> option nat) (cls_of : nat -> nat) : Prop :=
  forall t t', ancestor parent (cls_of t') (cls_of t) -> cls_of t' = cls_of t.

(* ---- histories of memoised calls, newest event first ---- *)
Section MemoHistory.
  Context {V : Type}.
  Definition ev_thread (e : @m_event V) : nat :=
    match e with EvCall t _ | EvRun t _ _ | EvRet t _ _ => t end.
  (* the most recent event of thread t *)
  Definition last_of (t : nat) (l : list (@m_event V)) : option (@m_event V) :=
    find (fun e => Nat.eqb (ev_thread e) t) l.
  Definition ran_ok (k : nat) (v : V) (l : list (@m_event V)) : Prop := exists t, In (EvRun t k (Ok v)) l.

  (* a history is well formed when every event is justified by the older ones *)
  Fixpoint justified (l : list (@m_event V)) : Prop :=
    match l with
    | [] => True
    | e :: r =>
        match e with
        | EvCall t k => match last_of t r with None | Some (EvRet _ _ _) => True | _ => False end
        | EvRun t k o => last_of t r = Some (EvCall t k) /\ forall v, ~ ran_ok k v r
        | EvRet t k o => last_of t r = Some (EvRun t k o) \/
                         (last_of t r = Some (EvCall t k) /\ exists v, o = Ok v /\ ran_ok k v r)
        end /\ justified r
    end.

End MemoHistory.

(* ---- requirement lists ---- *)
Definition bad (r : requirement) : bool := match r with ROther => true | _ => false end.
Definition missing_of (e : env) (reqs : list requirement) : list string :=
  flat_map (fun r => match r with RPkg p => if importable e p then [] else [p] | _ => [] end) reqs.
Definition errors_of (reqs : list requirement) : list string :=
  flat_map (fun r => match r with RImportError m => [m] | _ => [] end) reqs.
Definition forced (reqs : list requirement) : bool :=
  existsb (fun r => match r with RForce => true | _ => false end) reqs.

