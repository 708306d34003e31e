(* Model of /repo/africanus/model/coherency/conversion.py and util/casa_types.py *)
From Coq Require Import String.
From Verif Require Import Prelude CRing.
Open Scope nat_scope.
Open Scope string_scope.

(* casa_types.py:4-37 *)
Definition STOKES_TYPES : list string :=
  ["Undefined"; "I"; "Q"; "U"; "V"; "RR"; "RL"; "LR"; "LL"; "XX"; "XY"; "YX"; "YY";
   "RX"; "RY"; "LX"; "LY"; "XR"; "XL"; "YR"; "YL"; "PP"; "PQ"; "QP"; "QQ";
   "RCircular"; "LCircular"; "Linear"; "Ptotal"; "Plinear"; "PFtotal"; "PFlinear"; "Pangle"].
(* casa_types.py:45 and 52: dictionaries built by comprehension, later entries win *)
Definition STOKES_TYPE_MAP : list (string * nat) := combine STOKES_TYPES (seq 0 (List.length STOKES_TYPES)).
Definition STOKES_ID_MAP : list (nat * string) := map (fun kv => (snd kv, fst kv)) STOKES_TYPE_MAP.
(* dictionary lookup *)
Definition type_id (s : string) : option nat :=
  match filter (fun kv : string * nat => String.eqb (fst kv) s) (rev STOKES_TYPE_MAP) with
  | kv :: _ => Some (snd kv)
  | [] => None
  end.
Definition id_type (z : Z) : option string :=
  match filter (fun kv : nat * string => Z.eqb (Z.of_nat (fst kv)) z) (rev STOKES_ID_MAP) with
  | kv :: _ => Some (snd kv)
  | [] => None
  end.

(* a schema: nested lists or tuples of strings and integers *)
Inductive sch : Type := SStr (s : string) | SInt (z : Z) | SSeq (l : list sch) | SOther.

(* ---------- conversion.py:47-96 ---------- *)
Definition item : Type := (list sch * list nat * nat)%type.
Definition names : Type := list (string * list nat).
Definition has (r : names) (s : string) : bool := existsb (fun kv => String.eqb (fst kv) s) r.

(* lines 69-94: the elements of one sequence; returns the appended queue items and the result *)
Fixpoint scan (i : nat) (l : list sch) (cidx : list nat) (depth : nat) (r : names) : res (list item * names) :=
  match l with
  | [] => Ok ([], r)
  | e :: l' =>
      match e with
      | SSeq es => do! (q, r') <- scan (S i) l' cidx depth r; Ok ((es, (cidx ++ [i])%list, S depth) :: q, r')
      | SStr s => if has r s then Raise ValueError else scan (S i) l' cidx depth (r ++ [(s, (cidx ++ [i])%list)])%list
      | SInt z =>
          match id_type z with
          | None => Raise ValueError
          | Some s => if has r s then Raise ValueError else scan (S i) l' cidx depth (r ++ [(s, (cidx ++ [i])%list)])%list
          end
      | SOther => Raise TypeError
      end
  end.
(* lines 62-66 *)
Definition infer_shape (shape : list nat) (depth len : nat) : res (list nat) :=
  if Nat.leb (List.length shape) depth then Ok (shape ++ [len])%list
  else if negb (Nat.eqb (nth depth shape 0) len) then Raise DimensionInvalid
  else Ok shape.
(* lines 58-96; fuel counts the sequences still to be visited *)
Fixpoint bfs (fuel : nat) (queue : list item) (shape : list nat) (r : names) : res (names * list nat) :=
  match fuel with
  | O => Ok (r, shape)
  | S fuel' =>
      match queue with
      | [] => Ok (r, shape)
      | (cur, cidx, depth) :: q =>
          do! shape' <- infer_shape shape depth (List.length cur);
          do! (more, r') <- scan 0 cur cidx depth r;
          bfs fuel' (q ++ more)%list shape' r'
      end
  end.
Fixpoint seqs (t : sch) : nat := match t with SSeq l => S (list_sum (map seqs l)) | _ => 0 end.
(* line 48: a single element is wrapped into a list *)
Definition as_list (t : sch) : list sch := match t with SSeq l => l | _ => [t] end.
Definition element_indices_and_shape (t : sch) : res (names * list nat) :=
  let data := as_list t in
  bfs (S (seqs (SSeq data))) [(data, [], 0)] [] [].

(* ---------- values ---------- *)
(* complex numbers are pairs over the reals K; half is 1/2 *)
Section Values.
  Context {K : cops} (half : K).
  Open Scope K_scope.
  Definition cx : Type := (K * K)%type.
  Definition cx0 : cx := (0, 0).
  Definition xadd (a b : cx) : cx := (fst a + fst b, snd a + snd b).
  Definition xsub (a b : cx) : cx := (fst a - fst b, snd a - snd b).
  (* b * 1j *)
  Definition xmulj (b : cx) : cx := (copp (snd b), fst b).
  Definition xre (a : cx) : cx := (fst a * half, 0).
  Definition xim (a : cx) : cx := (snd a * half, 0).

  (* conversion.py:14-36, in the order of the dictionary *)
  Definition stokes_conv : list (string * list ((string * string) * (cx -> cx -> cx))) :=
    [("RR", [(("I", "V"), fun i v => xadd (xadd i v) cx0)]);
     ("RL", [(("Q", "U"), fun q u => xadd q (xmulj u))]);
     ("LR", [(("Q", "U"), fun q u => xsub q (xmulj u))]);
     ("LL", [(("I", "V"), fun i v => xadd (xsub i v) cx0)]);
     ("XX", [(("I", "Q"), fun i q => xadd (xadd i q) cx0)]);
     ("XY", [(("U", "V"), fun u v => xadd u (xmulj v))]);
     ("YX", [(("U", "V"), fun u v => xsub u (xmulj v))]);
     ("YY", [(("I", "Q"), fun i q => xadd (xsub i q) cx0)]);
     ("I", [(("XX", "YY"), fun xx yy => xre (xadd xx yy)); (("RR", "LL"), fun rr ll => xre (xadd rr ll))]);
     ("Q", [(("XX", "YY"), fun xx yy => xre (xsub xx yy)); (("RL", "LR"), fun rl lr => xre (xadd rl lr))]);
     ("U", [(("XY", "YX"), fun xy yx => xre (xadd xy yx)); (("RL", "LR"), fun rl lr => xim (xsub rl lr))]);
     ("V", [(("XY", "YX"), fun xy yx => xim (xsub xy yx)); (("RR", "LL"), fun rr ll => xre (xsub rr ll))])].

  Fixpoint assoc {B} (s : string) (l : list (string * B)) : option B :=
    match l with
    | [] => None
    | (k, b) :: l' => if String.eqb k s then Some b else assoc s l'
    end.

  (* ---------- conversion.py:99-150 ---------- *)
  (* lines 120-137: the first combination whose two inputs are present *)
  Fixpoint find_dep (inp : names) (deps : list ((string * string) * (cx -> cx -> cx)))
    : option (list nat * list nat * (cx -> cx -> cx)) :=
    match deps with
    | [] => None
    | ((c1, c2), fn) :: deps' =>
        match assoc c1 inp, assoc c2 inp with
        | Some i1, Some i2 => Some (i1, i2, fn)
        | _, _ => find_dep inp deps'
        end
    end.
  Definition entry : Type := (list nat * list nat * list nat * (cx -> cx -> cx))%type.
  (* lines 110-146.  In the error message of line 115 the variable deps is read: when no earlier
     output was known it is unbound and the error is an UnboundLocalError, a NameError. *)
  Fixpoint setup_loop (inp outs : names) (bound : bool) : res (list entry) :=
    match outs with
    | [] => Ok []
    | (okey, oidx) :: outs' =>
        match assoc okey stokes_conv with
        | None => Raise (if bound then ValueError else NameError)
        | Some deps =>
            match find_dep inp deps with
            | None => Raise MissingConversion
            | Some (i1, i2, fn) => do! rest <- setup_loop inp outs' true; Ok ((i1, i2, oidx, fn) :: rest)
            end
        end
    end.

  Record ndarr : Type := { nd_shape : list nat; nd_at : list nat -> cx }.
  Definition lastn {A} (n : nat) (l : list A) : list A := skipn (List.length l - n) l.
  Definition init_n {A} (n : nat) (l : list A) : list A := firstn (List.length l - n) l.
  Definition list_eqb (a b : list nat) : bool := if list_eq_dec Nat.eq_dec a b then true else false.

  (* np.result_type() of no arguments raises ValueError.  Data types are not modelled: the result
     type is complex as soon as one output is complex, so no assignment loses a part. *)
  Definition convert_setup (input : ndarr) (is os : sch) : res (list entry * list nat * list nat) :=
    do! (iidx, ishape) <- element_indices_and_shape is;
    do! (oidx, oshape) <- element_indices_and_shape os;
    if negb (list_eqb (lastn (List.length ishape) (nd_shape input)) ishape) then Raise ValueError
    else
      do! mapping <- setup_loop iidx oidx false;
      match mapping with [] => Raise ValueError | _ => Ok (mapping, ishape, oshape) end.

  (* a[..., idx] *)
  Definition ell_get (a : ndarr) (idx : list nat) : res ndarr :=
    let n := List.length idx in
    if Nat.ltb (List.length (nd_shape a)) n then Raise IndexError
    else if forallb (fun p : nat * nat => Nat.ltb (fst p) (snd p)) (combine idx (lastn n (nd_shape a)))
    then Ok {| nd_shape := init_n n (nd_shape a); nd_at := fun r => nd_at a (r ++ idx)%list |}
    else Raise IndexError.
  (* a[..., idx] = v.  Operands of different shapes, which only schemas with elements at several
     depths produce, are not broadcast here: they raise. *)
  Definition ell_set (a : ndarr) (idx : list nat) (v : ndarr) : res ndarr :=
    let n := List.length idx in
    do! t <- ell_get a idx;
    if list_eqb (nd_shape t) (nd_shape v)
    then Ok {| nd_shape := nd_shape a;
               nd_at := fun r => if list_eqb (lastn n r) idx then nd_at v (init_n n r) else nd_at a r |}
    else Raise ValueError.

  (* conversion.py:153-161; garbage is the content of np.empty *)
  Fixpoint apply_mapping (input : ndarr) (m : list entry) (out : ndarr) : res ndarr :=
    match m with
    | [] => Ok out
    | (i1, i2, oi, fn) :: m' =>
        do! a <- ell_get input i1;
        do! b <- ell_get input i2;
        if list_eqb (nd_shape a) (nd_shape b) then
          do! out' <- ell_set out oi {| nd_shape := nd_shape a; nd_at := fun r => fn (nd_at a r) (nd_at b r) |};
          apply_mapping input m' out'
        else Raise ValueError
    end.
  Definition convert_impl (garbage : list nat -> cx) (input : ndarr) (m : list entry) (ishape oshape : list nat) : res ndarr :=
    apply_mapping input m {| nd_shape := (init_n (List.length ishape) (nd_shape input) ++ oshape)%list; nd_at := garbage |}.
  (* conversion.py:164-172 *)
  Definition convert (garbage : list nat -> cx) (input : ndarr) (is os : sch) : res ndarr :=
    do! (m, ishape, oshape) <- convert_setup input is os;
    convert_impl garbage input m ishape oshape.
End Values.
Arguments ndarr : clear implicits.
Arguments cx : clear implicits.
