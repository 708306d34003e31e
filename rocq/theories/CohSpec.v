(* What a coherency schema and a coherency conversion mean, independently of the traversal. *)
From Coq Require Import String.
From Verif Require Import Prelude CRing CohModel.
Open Scope nat_scope.
Open Scope string_scope.

(* the enumeration of casacore's Stokes.h *)
Definition casacore_codes : list (string * nat) :=
  [("Undefined", 0); ("I", 1); ("Q", 2); ("U", 3); ("V", 4); ("RR", 5); ("RL", 6); ("LR", 7); ("LL", 8);
   ("XX", 9); ("XY", 10); ("YX", 11); ("YY", 12); ("RX", 13); ("RY", 14); ("LX", 15); ("LY", 16);
   ("XR", 17); ("XL", 18); ("YR", 19); ("YL", 20); ("PP", 21); ("PQ", 22); ("QP", 23); ("QQ", 24);
   ("RCircular", 25); ("LCircular", 26); ("Linear", 27); ("Ptotal", 28); ("Plinear", 29);
   ("PFtotal", 30); ("PFlinear", 31); ("Pangle", 32)].
Definition casa_name (z : Z) : option string :=
  if (Z.leb 0 z && Z.ltb z 33)%bool then option_map fst (nth_error casacore_codes (Z.to_nat z)) else None.

(* the element of a schema at a position *)
Fixpoint sub (t : sch) (idx : list nat) : option sch :=
  match idx with
  | [] => Some t
  | i :: rest =>
      match t with
      | SSeq l => match nth_error l i with Some e => sub e rest | None => None end
      | _ => None
      end
  end.
(* the polarisation named by an element that is not a sequence *)
Definition leaf_name (t : sch) : option string :=
  match t with
  | SStr s => Some s
  | SInt z => casa_name z
  | _ => None
  end.
Definition at_ (t : sch) (idx : list nat) (s : string) : Prop :=
  exists e, sub t idx = Some e /\ leaf_name e = Some s.
(* a single element stands for a list of one *)
Definition boxed (t : sch) : sch := match t with SSeq _ => t | _ => SSeq [t] end.
(* every element is a sequence or names a polarisation *)
Definition named (t : sch) : Prop :=
  forall idx e, sub t idx = Some e -> (exists l, e = SSeq l) \/ exists s, leaf_name e = Some s.
(* no polarisation is named twice *)
Definition distinct (t : sch) : Prop := forall i j s, at_ t i s -> at_ t j s -> i = j.
(* sequences at the same depth have the same length *)
Definition consistent (t : sch) : Prop :=
  forall i j l m, sub t i = Some (SSeq l) -> sub t j = Some (SSeq m) ->
    List.length i = List.length j -> List.length l = List.length m.

(* what an accepted schema returns *)
Definition described (t : sch) (r : names) (sh : list nat) : Prop :=
  (forall s idx, In (s, idx) r <-> at_ t idx s) /\ NoDup (map fst r) /\
  (forall idx l, sub t idx = Some (SSeq l) -> nth_error sh (List.length idx) = Some (List.length l)) /\
  (forall k, k < List.length sh -> exists idx l, List.length idx = k /\ sub t idx = Some (SSeq l)).

(* a regular schema: nested sequences of lengths dims, names only at the bottom *)
Fixpoint rect (t : sch) (dims : list nat) : Prop :=
  match dims with
  | [] => exists s, leaf_name t = Some s
  | d :: ds => exists l, t = SSeq l /\ List.length l = d /\ 0 < d /\ Forall (fun e => rect e ds) l
  end.
Definition only (t : sch) (ns : list string) : Prop := forall idx s, at_ t idx s -> In s ns.
Definition all_of (t : sch) (ns : list string) : Prop := forall s, In s ns -> exists idx, at_ t idx s.

(* an index is inside a shape *)
Definition inside (idx shape : list nat) : Prop := Forall2 lt idx shape.

(* the first combination of a list whose two names occur in the schema *)
Inductive first_pair {F : Type} (t : sch) : list ((string * string) * F) -> string -> string -> F -> Prop :=
| fp_here a b f l : (exists i, at_ t i a) -> (exists i, at_ t i b) -> first_pair t (((a, b), f) :: l) a b f
| fp_next a b f l a' b' f' : ~ ((exists i, at_ t i a) /\ (exists i, at_ t i b)) -> first_pair t l a' b' f' ->
    first_pair t (((a, b), f) :: l) a' b' f'.

(* ---------- Stokes parameters and correlations ---------- *)
Section Pol.
  Context {K : cops}.
  Open Scope K_scope.
  Notation cx := (cx K).
  Definition is_real (x : cx) : Prop := snd x = 0.
  Definition conjx (x : cx) : cx := (fst x, copp (snd x)).
  (* the linear coherency [[XX XY] [YX YY]] of Stokes parameters i, q, u, v *)
  Definition linear_of (i q u v : K) (s : string) : option cx :=
    if String.eqb s "XX" then Some (i + q, 0)
    else if String.eqb s "XY" then Some (u, v)
    else if String.eqb s "YX" then Some (u, copp v)
    else if String.eqb s "YY" then Some (i - q, 0)
    else None.
  (* the circular coherency [[RR RL] [LR LL]] *)
  Definition circular_of (i q u v : K) (s : string) : option cx :=
    if String.eqb s "RR" then Some (i + v, 0)
    else if String.eqb s "RL" then Some (q, u)
    else if String.eqb s "LR" then Some (q, copp u)
    else if String.eqb s "LL" then Some (i - v, 0)
    else None.
  Definition stokes_of (i q u v : K) (s : string) : option cx :=
    if String.eqb s "I" then Some (i, 0)
    else if String.eqb s "Q" then Some (q, 0)
    else if String.eqb s "U" then Some (u, 0)
    else if String.eqb s "V" then Some (v, 0)
    else None.
  (* the elements of the array a, at the leading index f, are those the values assign to the names of t *)
  Definition carries (a : ndarr K) (f : list nat) (t : sch) (val : string -> option cx) : Prop :=
    forall idx s x, at_ t idx s -> val s = Some x -> nd_at a (f ++ idx)%list = x.
  (* the correlations at leading index f form a Hermitian matrix: p and s are its diagonal *)
  Definition hermitian (a : ndarr K) (f : list nat) (t : sch) (p q r s : string) : Prop :=
    (forall i, at_ t i p \/ at_ t i s -> is_real (nd_at a (f ++ i)%list)) /\
    (forall i j, at_ t i q -> at_ t j r -> nd_at a (f ++ j)%list = conjx (nd_at a (f ++ i)%list)).
End Pol.
Definition STOKES := ["I"; "Q"; "U"; "V"].
Definition LINEAR := ["XX"; "XY"; "YX"; "YY"].
Definition CIRCULAR := ["RR"; "RL"; "LR"; "LL"].
