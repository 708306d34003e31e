(* Model of the caches of generated kernels: memoize_on_key of /repo/africanus/util/code.py around the functions that generate the
   CUDA kernels, and the key functions they are used with.  A history is the list of earlier calls, oldest first.  The lock is held
   from the lookup to the store, so the calls of several threads form such a list (C24).  A generated kernel is the tuple of what
   the template is rendered with and what the generator returns; the text of the template is not here.  Types are abstract
   (numbers stand for dtypes), keys that cannot be hashed are not modelled. *)
From Coq Require Import String.
From Verif Require Import Prelude CRing CohModel DaskRimeModel PredictModel CudaPredictModel CudaRimeModel CudaBeamModel CudaCohModel.
Open Scope nat_scope.

(* ---------- util/code.py:46-118 ---------- *)
Section Memo.
  Context {A Ky V : Type} (same : Ky -> Ky -> bool) (key : A -> Ky) (fn : A -> res V).
  Definition cached (cache : list (Ky * V)) (k : Ky) : option V :=
    option_map snd (find (fun e => same (fst e) k) cache).
  Definition memo_call (cache : list (Ky * V)) (a : A) : res V * list (Ky * V) :=
    match cached cache (key a) with
    | Some v => (Ok v, cache)
    | None => match fn a with Ok v => (Ok v, (key a, v) :: cache) | Raise e => (Raise e, cache) end
    end.
  Definition cache_after (h : list A) : list (Ky * V) := fold_left (fun c a => snd (memo_call c a)) h [].
  (* what the call a returns after the calls h *)
  Definition memoized (h : list A) (a : A) : res V := fst (memo_call (cache_after h) a).
End Memo.

Definition dt : Type := nat.
Record array_arg : Type := { ar_type : dt; ar_shape : list nat }.
Definition ar_ndim (a : array_arg) : nat := List.length (ar_shape a).
Definition pair_eqb {X Y} (ex : X -> X -> bool) (ey : Y -> Y -> bool) (p q : X * Y) : bool := ex (fst p) (fst q) && ey (snd p) (snd q).
Fixpoint all_eqb {X} (ex : X -> X -> bool) (l m : list X) : bool :=
  match l, m with [], [] => true | x :: l', y :: m' => ex x y && all_eqb ex l' m' | _, _ => false end.
Definition opt_eqb {X} (ex : X -> X -> bool) (p q : option X) : bool :=
  match p, q with None, None => true | Some x, Some y => ex x y | _, _ => false end.

Section Kernels.
  (* numpy_to_cuda_type_map and cupy's get_typename, cuda_fns, and np.result_type (None is a missing array) *)
  Variables (cuda_type : dt -> res string) (cuda_function : string -> dt -> res string) (result_type : list (option dt) -> res dt).
  Variables (float32 float64 int32 complex64 complex128 : dt) (real_of : dt -> dt).
  Open Scope string_scope.

  (* ---------- rime/cuda/phase.py:26-60 ---------- *)
  Definition phase_key (c : array_arg * array_arg * array_arg) : list dt :=
    let '(lm, uvw, frequency) := c in [ar_type lm; ar_type uvw; ar_type frequency].
  Definition phase_generate (c : array_arg * array_arg * array_arg) : res (list string * (nat * nat) * dt) :=
    let '(lm, uvw, frequency) := c in
    do! out <- result_type [Some (ar_type lm); Some (ar_type uvw); Some (ar_type frequency)];
    let bdx := if Nat.eqb (ar_type frequency) float32 then 32 else 16 in
    let bdy := if Nat.eqb (ar_type uvw) float32 then 32 else 16 in
    do! t1 <- cuda_type (ar_type lm);
    do! t2 <- cuda_type (ar_type uvw);
    do! t3 <- cuda_type (ar_type frequency);
    do! t4 <- cuda_type out;
    do! f1 <- cuda_function "sqrt" (ar_type lm);
    do! f2 <- cuda_function "sincos" out;
    do! out' <- result_type [Some out; Some complex64];
    Ok ([t1; t2; t3; t4; f1; f2], (bdx, bdy), out').

  (* ---------- rime/cuda/feeds.py:30-62; a feed type that is neither is an error of the template ---------- *)
  Definition feed_key (c : array_arg * string) : dt * string := (ar_type (fst c), snd c).
  Definition feed_generate (c : array_arg * string) : res (list string * nat * dt) :=
    let d := ar_type (fst c) in
    do! block <- (if Nat.eqb d float32 then Ok (2 ^ 10) else if Nat.eqb d float64 then Ok (2 ^ 9) else Raise TypeError);
    do! f <- cuda_function "sincos" d;
    do! t <- cuda_type d;
    if String.eqb (snd c) "linear" || String.eqb (snd c) "circular" then
      do! out <- result_type [Some d; Some complex64];
      Ok ([snd c; f; t], block, out)
    else Raise template_exn.

  (* ---------- rime/cuda/predict.py:31-102; corrs and out_ndim are the last two arguments ---------- *)
  Record predict_call : Type := {
    pc_time : array_arg; pc_ant1 : array_arg; pc_ant2 : array_arg;
    pc_dde1 : option array_arg; pc_coh : option array_arg; pc_dde2 : option array_arg;
    pc_die1 : option array_arg; pc_bvis : option array_arg; pc_die2 : option array_arg;
    pc_corrs : list nat; pc_out_ndim : nat }.
  Definition type_rank (a : array_arg) : dt * nat := (ar_type a, ar_ndim a).
  Definition predict_key (c : predict_call) : list (option (dt * nat)) * list nat * nat :=
    (map (option_map type_rank) [Some (pc_time c); Some (pc_ant1 c); Some (pc_ant2 c); pc_dde1 c; pc_coh c; pc_dde2 c;
                                 pc_die1 c; pc_bvis c; pc_die2 c], pc_corrs c, pc_out_ndim c).
  Definition predict_same : list (option (dt * nat)) * list nat * nat -> list (option (dt * nat)) * list nat * nat -> bool :=
    pair_eqb (pair_eqb (all_eqb (opt_eqb (pair_eqb Nat.eqb Nat.eqb))) (all_eqb Nat.eqb)) Nat.eqb.
  Definition rendered (a : option array_arg) : res (string * nat) :=
    match a with None => Ok ("int", 1) | Some a => do! t <- cuda_type (ar_type a); Ok (t, ar_ndim a) end.
  Definition predict_generate (c : predict_call)
    : res (flags * list (string * nat) * string * (nat * nat) * nat * nat * dt) :=
    let nd := option_map ar_ndim in
    do! fl <- predict_checks (ar_ndim (pc_time c)) (ar_ndim (pc_ant1 c)) (ar_ndim (pc_ant2 c))
                (nd (pc_dde1 c)) (nd (pc_coh c)) (nd (pc_dde2 c)) (nd (pc_die1 c)) (nd (pc_bvis c)) (nd (pc_die2 c));
    if negb (Nat.eqb (ar_type (pc_time c)) int32) then Raise TypeError
    else if negb (Nat.eqb (ar_type (pc_ant1 c)) int32) then Raise TypeError
    else if negb (Nat.eqb (ar_type (pc_ant2 c)) int32) then Raise TypeError
    else
      let ty := option_map ar_type in
      do! out <- result_type [ty (pc_dde1 c); ty (pc_coh c); ty (pc_dde2 c); ty (pc_die1 c); ty (pc_bvis c); ty (pc_die2 c)];
      let bdy := if Nat.eqb out complex128 then 24 else 32 in
      do! r1 <- rendered (pc_dde1 c);
      do! r2 <- rendered (pc_dde2 c);
      do! r3 <- rendered (pc_coh c);
      do! r4 <- rendered (pc_die1 c);
      do! r5 <- rendered (pc_bvis c);
      do! r6 <- rendered (pc_die2 c);
      do! t <- cuda_type out;
      Ok (fl, [r1; r2; r3; r4; r5; r6], t, (32, bdy), prodn (pc_corrs c), pc_out_ndim c, out).

  (* ---------- rime/cuda/beam.py:36-56 ---------- *)
  Definition interp_key (c : array_arg * array_arg) : list dt := [ar_type (fst c); ar_type (snd c)].
  Definition interp_generate (c : array_arg * array_arg) : res (list string * nat * dt) :=
    do! t1 <- cuda_type (ar_type (fst c));
    do! t2 <- cuda_type (ar_type (snd c));
    do! out <- result_type [Some (ar_type (fst c)); Some (ar_type (snd c))];
    Ok ([t1; t2], 2 ^ 10, out).

  (* ---------- rime/cuda/beam.py:59-140; the arrays are beam_lm_ext, beam_freq_map, lm, parangles, pointing_errors,
     antenna_scaling and frequencies ---------- *)
  Record beam_call : Type := { bc_beam : array_arg; bc_ext : dt; bc_map : dt; bc_lm : dt; bc_pa : dt; bc_pe : dt; bc_as : dt; bc_freq : dt;
                               bc_dde_dims : nat; bc_ncorr : nat }.
  Definition beam_key (c : beam_call) : list nat :=
    [ar_type (bc_beam c); ar_ndim (bc_beam c); bc_ext c; bc_map c; bc_lm c; bc_pa c; bc_pe c; bc_as c; bc_freq c; bc_dde_dims c; bc_ncorr c].
  Definition beam_type_of (d : dt) : beam_type := if Nat.eqb d complex64 then Complex64 else if Nat.eqb d complex128 then Complex128 else NotComplex.
  Definition first_three (shape : list nat) : res (nat * nat * nat) :=
    match shape with lw :: mh :: nud :: _ => Ok (lw, mh, nud) | _ => Raise ValueError end.
  (* 120-122, 127-146 *)
  Definition functions (l : list (string * dt)) : res (list string) :=
    fold_right (fun p acc => do! f <- cuda_function (fst p) (snd p); do! r <- acc; Ok (f :: r)) (Ok []) l.
  Definition type_names (l : list dt) : res (list string) :=
    fold_right (fun d acc => do! f <- cuda_type d; do! r <- acc; Ok (f :: r)) (Ok []) l.
  Definition beam_generate (c : beam_call) : res ((nat * nat) * list string * list string * (nat * nat * nat) * dt) :=
    do! (lw, mh, nud) <- first_three (ar_shape (bc_beam c));
    do! bs <- generate_main lw mh nud (bc_ncorr c) (beam_type_of (ar_type (bc_beam c)));
    do! coord <- result_type [Some (bc_ext c); Some (bc_lm c); Some (bc_pa c); Some (bc_pe c); Some (bc_as c); Some float32];
    if negb (Nat.eqb coord float32 || Nat.eqb coord float64) then Raise AssertionError
    else
      let b := real_of (ar_type (bc_beam c)) in
      do! fs <- functions [("make2", b); ("sqrt", b); ("rsqrt", b); ("floor", coord); ("min", coord); ("max", coord); ("cos", coord); ("sin", coord)];
      do! ts <- type_names [b; coord; bc_ext c; bc_map c; bc_lm c; bc_pa c; bc_pe c; bc_as c; bc_freq c];
      Ok (bs, fs, ts, (ar_ndim (bc_beam c), bc_dde_dims c, bc_ncorr c), ar_type (bc_beam c)).
End Kernels.

(* ---------- model/coherency/cuda/conversion.py:109-216 ---------- *)
(* schema_to_tuple makes lists and tuples alike, as SSeq is.  Elements that are neither a sequence, a name nor a number count as the
   same: a schema with one is refused, so it is in no cache. *)
Fixpoint sch_eqb (s t : sch) : bool :=
  match s, t with
  | SStr a, SStr b => String.eqb a b
  | SInt a, SInt b => Z.eqb a b
  | SSeq l, SSeq m => (fix go l m := match l, m with [], [] => true | x :: l', y :: m' => sch_eqb x y && go l' m' | _, _ => false end) l m
  | SOther, SOther => true
  | _, _ => false
  end.
Section Convert.
  Context {K : cops} (half : K) (class : dt -> in_type).
  Notation cx := (cx K).
  Definition convert_call : Type := (dt * list nat * sch * sch)%type.          (* dtype and shape of inputs, the two schemas *)
  Definition convert_key (c : convert_call) : dt * sch * sch := let '(d, _, is, os) := c in (d, is, os).
  Definition convert_same (k1 k2 : dt * sch * sch) : bool := pair_eqb (pair_eqb Nat.eqb sch_eqb) sch_eqb k1 k2.
  Definition convert_generate (c : convert_call) : res (list (@assignment K) * list nat * list nat * kind) :=
    let '(d, shape, is, os) := c in generate_kernel half (class d) shape is os.
  (* conversion.py:188-216 after the calls h; the reshape of line 201 raises when the sizes differ *)
  Definition cuda_convert_after (h : list convert_call) (d : dt) (und : nat -> arr cx * arr cx) (garbage : nat -> cx) (order : nat -> list nat)
      (a : ndarr K) (is os : sch) : res (ndarr K) :=
    do! (exprs, ishape, oshape, k) <- memoized convert_same convert_key convert_generate h (d, nd_shape a, is, os);
    if negb (Nat.eqb (prodn (nd_shape a)) (prodn (init_n (List.length ishape) (nd_shape a)) * prodn ishape)) then Raise ValueError
    else if compiles (class d) k then launch_convert und garbage order (exprs, ishape, oshape) a else Raise compile_exn.
End Convert.
