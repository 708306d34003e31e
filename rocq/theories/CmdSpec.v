(* What the expressions accepted by parse_python_assigns stand for, written without the evaluator *)
From Coq Require Import String ZArith QArith.
From Verif Require Import Prelude CmdModel.
Close Scope Q_scope.
Close Scope Z_scope.
Open Scope nat_scope.

(* immutable values made of constants and tuples *)
Inductive frozen : value -> Prop :=
| f_const c : frozen (VConst c)
| f_tuple vs : Forall frozen vs -> frozen (VTuple vs).
(* signed numbers *)
Inductive number : expr -> num -> Prop :=
| n_plain n : number (EConst (KNum n)) n
| n_plus n : number (EUnary UAdd (EConst (KNum n))) n
| n_int z : number (EUnary USub (EConst (KNum (Int z)))) (Int (- z))
| n_float q : number (EUnary USub (EConst (KNum (Float q)))) (Float (- q))
| n_complex a b : number (EUnary USub (EConst (KNum (Complex a b)))) (Complex (- a) (- b)).
(* literals: no name is looked up and nothing is called, but for set() where it is a literal *)
Inductive literal (empty_set : bool) : expr -> value -> Prop :=
| l_const c : literal empty_set (EConst c) (VConst c)
| l_number e n : number e n -> literal empty_set e (VConst (KNum n))
| l_plus_int l z x y : number l (Int z) -> literal empty_set (EBinary BAdd l (EConst (KNum (Complex x y)))) (VConst (KNum (Complex (inject_Z z + x) y)))
| l_plus_float l q x y : number l (Float q) -> literal empty_set (EBinary BAdd l (EConst (KNum (Complex x y)))) (VConst (KNum (Complex (q + x) y)))
| l_minus_int l z x y : number l (Int z) -> literal empty_set (EBinary BSub l (EConst (KNum (Complex x y)))) (VConst (KNum (Complex (inject_Z z - x) (- y))))
| l_minus_float l q x y : number l (Float q) -> literal empty_set (EBinary BSub l (EConst (KNum (Complex x y)))) (VConst (KNum (Complex (q - x) (- y))))
| l_tuple es vs : Forall2 (literal empty_set) es vs -> literal empty_set (ETuple es) (VTuple vs)
| l_list es vs : Forall2 (literal empty_set) es vs -> literal empty_set (EList es) (VList vs)
| l_set es vs : Forall2 (literal empty_set) es vs -> Forall frozen vs -> literal empty_set (ESet es) (VSet vs)
| l_empty_set : empty_set = true -> literal empty_set (ECall (EName "set") [] []) (VSet [])
| l_dict items kvs : Forall2 (fun i kv => exists k, fst i = Some k /\ literal empty_set k (fst kv) /\ literal empty_set (snd i) (snd kv)) items kvs ->
    Forall (fun kv => frozen (fst kv)) kvs -> literal empty_set (EDict items) (VDict kvs).
(* an argument left out of slice is None *)
Inductive slice_args : list value -> value -> value -> value -> Prop :=
| s1 b : slice_args [b] (VConst KNone) b (VConst KNone)
| s2 a b : slice_args [a; b] a b (VConst KNone)
| s3 a b c : slice_args [a; b; c] a b c.
(* the value of the right hand side of an assignment: a literal, or slice of such values *)
Inductive denotes (empty_set : bool) : expr -> value -> Prop :=
| d_literal e v : literal empty_set e v -> (forall f a k, e <> ECall f a k) -> denotes empty_set e v
| d_slice args vs a b c : Forall2 (denotes empty_set) args vs -> slice_args vs a b c -> denotes empty_set (ECall (EName "slice") args []) (VSlice a b c).
(* data: literals and slices of data *)
Inductive plain : value -> Prop :=
| p_const c : plain (VConst c)
| p_tuple vs : Forall plain vs -> plain (VTuple vs)
| p_list vs : Forall plain vs -> plain (VList vs)
| p_set vs : Forall plain vs -> plain (VSet vs)
| p_dict kvs : Forall (fun kv => plain (fst kv) /\ plain (snd kv)) kvs -> plain (VDict kvs)
| p_slice a b c : plain a -> plain b -> plain c -> plain (VSlice a b c).

(* the bindings made by one target, in order; a value that is no tuple or list counts as one element *)
Definition elements (v : value) : list value := match v with VTuple vs | VList vs => vs | _ => [v] end.
Inductive binds : target -> value -> list (string * value) -> Prop :=
| b_name x v : binds (TName x) v [(x, v)]
| b_tuple xs v : length xs = length (elements v) -> binds (TTuple (map TName xs)) v (combine xs (elements v))
| b_list xs v : length xs = length (elements v) -> binds (TList (map TName xs)) v (combine xs (elements v)).
Inductive binds_all : list target -> value -> list (string * value) -> Prop :=
| ba_nil v : binds_all [] v []
| ba_cons t ts v b bs : binds t v b -> binds_all ts v bs -> binds_all (t :: ts) v (b ++ bs).
(* the bindings made by a program, in order *)
Inductive program (empty_set : bool) : list stmt -> list (string * value) -> Prop :=
| pr_nil : program empty_set [] []
| pr_cons ts e v b ss bs : denotes empty_set e v -> binds_all ts v b -> program empty_set ss bs -> program empty_set (SAssign ts e :: ss) (b ++ bs).
(* the last binding of a name, and looking a name up *)
Fixpoint last_binding (bs : list (string * value)) (x : string) : option value :=
  match bs with
  | [] => None
  | (y, v) :: r => match last_binding r x with Some w => Some w | None => if String.eqb y x then Some v else None end
  end.
Fixpoint lookup (d : list (string * value)) (x : string) : option value :=
  match d with [] => None | (y, v) :: r => if String.eqb y x then Some v else lookup r x end.
(* the builtin slice is Python's; the other builtins may be anything *)
Definition slice_is_slice (builtin : string -> list value -> list (option string * value) -> res value) : Prop := forall args kws, builtin "slice"%string args kws = py_slice args kws.
