(* Model of /repo/africanus/util/cmdline.py.  The input is the body of the tree made by ast.parse; the parser itself is not
   modelled.  The interpreter is Python 3.8 or later.  Numbers are exact: floats are rationals. *)
From Coq Require Import String ZArith QArith.
From Verif Require Import Prelude.
Close Scope Q_scope.
Close Scope Z_scope.
Open Scope nat_scope.

Inductive num : Type := Int (z : Z) | Float (q : Q) | Complex (re im : Q).
Inductive const : Type := KNum (n : num) | KBool (b : bool) | KNone | KEllipsis | KStr (s : string) | KBytes (s : string).
Inductive unop : Type := UAdd | USub | UNot | UInvert.
Inductive binop : Type := BAdd | BSub | BOther.
(* expressions of module ast; EOther is any other kind of expression (lambda, subscript, comparison, comprehension, f-string ...).
   A keyword without a name is **kw, and a dictionary item without a key is **d. *)
Inductive expr : Type :=
| EConst (c : const)
| ETuple (es : list expr)
| EList (es : list expr)
| ESet (es : list expr)
| EDict (items : list (option expr * expr))
| EUnary (op : unop) (e : expr)
| EBinary (op : binop) (l r : expr)
| EName (x : string)
| EAttribute (e : expr) (x : string)
| ECall (f : expr) (args : list expr) (kws : list (option string * expr))
| EStarred (e : expr)
| EOther (es : list expr).
(* the targets the parser gives in an assignment *)
Inductive target : Type := TName (x : string) | TTuple (ts : list target) | TList (ts : list target) | TOther.
Inductive stmt : Type := SAssign (ts : list target) (e : expr) | SOther.

Inductive value : Type :=
| VConst (c : const)
| VTuple (vs : list value)
| VList (vs : list value)
| VSet (vs : list value)                        (* the elements as given *)
| VDict (items : list (value * value))          (* the items as given *)
| VSlice (start stop step : value)
| VObject (n : nat).                            (* anything else, such as the result of another builtin *)

(* hash(v) works *)
Fixpoint hashable (v : value) : bool :=
  match v with
  | VConst _ | VObject _ => true
  | VTuple vs => forallb hashable vs
  | VList _ | VSet _ | VDict _ | VSlice _ _ _ => false
  end.

(* ------------------------------------------------------------------ *)
(* ast.literal_eval, line 66.  empty_set: set() counts as a literal, which is so from Python 3.9 *)
Definition convert_num (e : expr) : res num := match e with EConst (KNum n) => Ok n | _ => Raise ValueError end.
Definition neg (n : num) : num :=
  match n with Int z => Int (- z) | Float q => Float (- q) | Complex a b => Complex (- a) (- b) end.
Definition convert_signed_num (e : expr) : res num :=
  match e with
  | EUnary UAdd e => convert_num e
  | EUnary USub e => do! n <- convert_num e; Ok (neg n)
  | _ => convert_num e
  end.
Definition to_q (n : num) : option Q := match n with Int z => Some (inject_Z z) | Float q => Some q | Complex _ _ => None end.
Definition convert_sum (op : binop) (l r : expr) : res value :=
  match op with
  | BOther => Raise ValueError
  | _ =>
      do! a <- convert_signed_num l;
      do! b <- convert_num r;
      match to_q a, b with
      | Some q, Complex x y => Ok (VConst (KNum (match op with BSub => Complex (q - x) (- y) | _ => Complex (q + x) y end)))
      | _, _ => Raise ValueError
      end
  end.
Section Literal.
  Variable empty_set : bool.
  Fixpoint literal_eval (e : expr) : res value :=
    let all := fix all (es : list expr) : res (list value) :=
      match es with [] => Ok [] | e :: es => do! v <- literal_eval e; do! vs <- all es; Ok (v :: vs) end in
    match e with
    | EConst c => Ok (VConst c)
    | ETuple es => do! vs <- all es; Ok (VTuple vs)
    | EList es => do! vs <- all es; Ok (VList vs)
    | ESet es =>
        do! vs <- (fix hashed (es : list expr) : res (list value) :=
          match es with
          | [] => Ok []
          | e :: es => do! v <- literal_eval e; if hashable v then do! vs <- hashed es; Ok (v :: vs) else Raise TypeError
          end) es; Ok (VSet vs)
    | ECall (EName f) [] [] => if empty_set && String.eqb f "set" then Ok (VSet []) else Raise ValueError
    | EDict items =>
        do! kvs <- (fix pairs (items : list (option expr * expr)) : res (list (value * value)) :=
          match items with
          | [] => Ok []
          | (None, _) :: _ => Raise ValueError
          | (Some k, e) :: items =>
              do! a <- literal_eval k; do! v <- literal_eval e;
              if hashable a then do! r <- pairs items; Ok ((a, v) :: r) else Raise TypeError
          end) items; Ok (VDict kvs)
    | EBinary op l r => convert_sum op l r
    | _ => do! n <- convert_signed_num e; Ok (VConst (KNum n))
    end.
End Literal.

(* ------------------------------------------------------------------ *)
(* What happens: a result, and the builtins called on the way with their arguments, the latest last *)
Definition call : Type := string * list value * list (option string * value).
Definition run (A : Type) : Type := res A * list call.
Definition ret {A} (r : res A) : run A := (r, []).
Definition andthen {A B} (x : run A) (f : A -> run B) : run B :=
  match x with
  | (Ok a, t) => let '(r, t') := f a in (r, t ++ t')
  | (Raise e, t) => (Raise e, t)
  end.
(* lines 8-12 *)
Definition whitelist : list string := ["slice"%string].
Definition whitelisted (f : string) : bool := existsb (String.eqb f) whitelist.
Section Parser.
  Variable empty_set : bool.
  (* getattr(builtins, f)( *args, **kwargs ) *)
  Variable builtin : string -> list value -> list (option string * value) -> res value.
  (* lines 45-66 _eval_value.  The arguments are evaluated from left to right.  kwargs is given with its items in order, a name
     given twice being refused by the parser. *)
  Fixpoint eval_value (e : expr) : run value :=
    match e with
    | ECall (EName f) args kws =>
        if negb (whitelisted f) then ret (Raise ValueError) else
        andthen ((fix all (es : list expr) : run (list value) :=
          match es with [] => ret (Ok []) | e :: es => andthen (eval_value e) (fun v => andthen (all es) (fun vs => ret (Ok (v :: vs)))) end) args) (fun vs =>
        andthen ((fix named (es : list (option string * expr)) : run (list (option string * value)) :=
          match es with [] => ret (Ok []) | (x, e) :: es => andthen (eval_value e) (fun v => andthen (named es) (fun vs => ret (Ok ((x, v) :: vs)))) end) kws) (fun ks =>
        (builtin f vs ks, [(f, vs, ks)])))
    (* stmt_value.func.id *)
    | ECall _ _ _ => ret (Raise AttributeErrorExn)
    | _ => ret (literal_eval empty_set e)
    end.
  Definition dict : Type := list (string * value).
  (* variables[x] = v *)
  Fixpoint set_item (d : dict) (x : string) (v : value) : dict :=
    match d with
    | [] => [(x, v)]
    | (y, w) :: r => if String.eqb y x then (y, v) :: r else (y, w) :: set_item r x v
    end.
  Fixpoint set_items (d : dict) (xs : list string) (vs : list value) : dict :=
    match xs, vs with
    | x :: xs, v :: vs => set_items (set_item d x v) xs vs
    | _, _ => d
    end.
  (* isinstance(e, ast.Name) for all elements: their names *)
  Fixpoint names (ts : list target) : option (list string) :=
    match ts with
    | [] => Some []
    | TName x :: ts => match names ts with Some xs => Some (x :: xs) | None => None end
    | _ :: _ => None
    end.
  (* lines 84-116: one target *)
  Definition assign (d : dict) (t : target) (v : value) : res dict :=
    match t with
    | TName x => Ok (set_item d x v)
    | TTuple ts | TList ts =>
        match names ts with
        | None => Raise ValueError
        | Some xs =>
            let elements := match v with VTuple vs | VList vs => vs | _ => [v] end in
            if Nat.eqb (length xs) (length elements) then Ok (set_items d xs elements) else Raise ValueError
        end
    | TOther => Raise TypeError
    end.
  Fixpoint assigns (d : dict) (ts : list target) (v : value) : res dict :=
    match ts with
    | [] => Ok d
    | t :: ts => do! d <- assign d t v; assigns d ts v
    end.
  (* lines 68-118; the empty string (lines 42-43) is the same as no statement *)
  Fixpoint statements (d : dict) (ss : list stmt) : run dict :=
    match ss with
    | [] => ret (Ok d)
    | SOther :: _ => ret (Raise ValueError)
    | SAssign ts e :: ss => andthen (eval_value e) (fun v => andthen (ret (assigns d ts v)) (fun d => statements d ss))
    end.
  Definition parse_python_assigns (ss : list stmt) : run dict := statements [] ss.
End Parser.
(* the builtin slice *)
Definition py_slice (args : list value) (kws : list (option string * value)) : res value :=
  match kws, args with
  | [], [b] => Ok (VSlice (VConst KNone) b (VConst KNone))
  | [], [a; b] => Ok (VSlice a b (VConst KNone))
  | [], [a; b; c] => Ok (VSlice a b c)
  | _, _ => Raise TypeError
  end.
