(* Model of /repo/africanus/model/coherency/cuda/conversion.py and of the kernel in conversion.cu.j2.
   The threads of a launch form groups of as many lanes as a source has elements; the lanes of a group meet at each shuffle of
   warp_transpose and groups do not communicate, so a schedule is an order of the groups.  The group of a thread is
   source / elements: the block of 512 threads is a multiple of every accepted number of elements (C95_elements).
   The mask of the shuffles, rounding, integer types other than as a kind of input, and integer overflow are not modelled.
   The cache of generated kernels is not here: every call generates its kernel. *)
From Coq Require Import String.
From Verif Require Import Prelude CRing UtilModel CohModel DaskRimeModel CudaPredictModel CudaRimeModel.
Open Scope nat_scope.
Open Scope string_scope.

(* what the data type of the input is to the kernel: a type of numpy_to_cuda_type_map that is real or complex, or one that is
   not in that map *)
Inductive in_type : Type := TReal | TComplex | TUnmapped.
Inductive kind : Type := KReal | KComplex.      (* "real", "complex" *)
Definition kind_eqb (a b : kind) : bool := match a, b with KReal, KReal | KComplex, KComplex => true | _, _ => false end.

Section Values.
  Context {K : cops} (half : K).
  Open Scope K_scope.
  Notation cx := (cx K).
  Definition expr : Type := cx -> cx -> cx.
  (* conversion.py:29-51, in the order of the dictionary.  A real device value is the first component of the pair; the second
     of a real result is zero. *)
  Definition gpu_conv : list (string * list ((string * string) * (kind * expr))) :=
    [("RR", [(("I", "V"), (KComplex, fun i v => (fst i + fst v, 0)))]);
     ("RL", [(("Q", "U"), (KComplex, fun q u => (fst q, fst u)))]);
     ("LR", [(("Q", "U"), (KComplex, fun q u => (fst q, copp (fst u))))]);
     ("LL", [(("I", "V"), (KComplex, fun i v => (fst i - fst v, 0)))]);
     ("XX", [(("I", "Q"), (KComplex, fun i q => (fst i + fst q, 0)))]);
     ("XY", [(("U", "V"), (KComplex, fun u v => (fst u, fst v)))]);
     ("YX", [(("U", "V"), (KComplex, fun u v => (fst u, copp (fst v))))]);
     ("YY", [(("I", "Q"), (KComplex, fun i q => (fst i - fst q, 0)))]);
     ("I", [(("XX", "YY"), (KReal, fun xx yy => ((fst xx + fst yy) * half, 0)));
            (("RR", "LL"), (KReal, fun rr ll => ((fst rr + fst ll) * half, 0)))]);
     ("Q", [(("XX", "YY"), (KReal, fun xx yy => ((fst xx - fst yy) * half, 0)));
            (("RL", "LR"), (KReal, fun rl lr => ((fst rl + fst lr) * half, 0)))]);
     ("U", [(("XY", "YX"), (KReal, fun xy yx => ((fst xy + fst yx) * half, 0)));
            (("RL", "LR"), (KReal, fun rl lr => ((snd rl - snd lr) * half, 0)))]);
     ("V", [(("XY", "YX"), (KReal, fun xy yx => ((snd xy - snd yx) * half, 0)));
            (("RR", "LL"), (KReal, fun rr ll => ((fst rr - fst ll) * half, 0)))])].

  (* conversion.py:75-91 *)
  Fixpoint find_gpu (inp : names) (deps : list ((string * string) * (kind * expr)))
    : option (list nat * list nat * (kind * expr)) :=
    match deps with
    | [] => None
    | ((c1, c2), kf) :: deps' =>
        match assoc c1 inp with
        | None => find_gpu inp deps'
        | Some i1 => match assoc c2 inp with
                     | None => find_gpu inp deps'
                     | Some i2 => Some (i1, i2, kf)
                     end
        end
    end.
  Definition gpu_entry : Type := (list nat * list nat * list nat * (kind * expr))%type.
  (* conversion.py:61-100; the list dtypes is kept inside the mapping *)
  Fixpoint gpu_loop (inp outs : names) : res (list gpu_entry) :=
    match outs with
    | [] => Ok []
    | (okey, oidx) :: outs' =>
        match assoc okey gpu_conv with
        | None => Raise ValueError
        | Some deps =>
            match find_gpu inp deps with
            | None => Raise MissingConversion
            | Some (i1, i2, kf) => do! rest <- gpu_loop inp outs'; Ok ((i1, i2, oidx, kf) :: rest)
            end
        end
    end.
  Definition kind_of (e : gpu_entry) : kind := fst (snd e).
  (* conversion.py:54-106: dtypes[0] of an empty list raises IndexError, after the comparison of no elements *)
  Definition gpu_setup (shape : list nat) (is os : sch) : res (list gpu_entry * list nat * list nat * kind) :=
    do! (iidx, ishape) <- element_indices_and_shape is;
    do! (oidx, oshape) <- element_indices_and_shape os;
    if negb (list_eqb (lastn (List.length ishape) shape) ishape) then Raise ValueError
    else
      do! mapping <- gpu_loop iidx oidx;
      match mapping with
      | [] => Raise IndexError
      | e :: rest => if forallb (fun d => kind_eqb (kind_of e) (kind_of d)) rest then Ok (mapping, ishape, oshape, kind_of e)
                     else Raise ValueError
      end.

  (* np.ravel_multi_index *)
  Definition ravel_multi (idx shape : list nat) : res nat :=
    if Nat.eqb (List.length idx) (List.length shape) && forallb (fun p : nat * nat => Nat.ltb (fst p) (snd p)) (combine idx shape)
    then Ok (ravel shape idx) else Raise ValueError.
  Definition assignment : Type := (nat * nat * nat * expr)%type.     (* out[o] = fn(in[a], in[b]) as (a, b, o, fn) *)
  (* conversion.py:161-170 *)
  Fixpoint assign_exprs (m : list gpu_entry) (ishape oshape : list nat) : res (list assignment) :=
    match m with
    | [] => Ok []
    | (i1, i2, oi, (_, fn)) :: m' =>
        do! o <- ravel_multi oi oshape;
        do! a <- ravel_multi i1 ishape;
        do! b <- ravel_multi i2 ishape;
        do! rest <- assign_exprs m' ishape oshape;
        Ok ((a, b, o, fn) :: rest)
    end.
  (* macros.j2:95-97 *)
  Definition transposable (n : nat) : bool := negb (Nat.ltb n 1 || negb (Nat.eqb (Nat.land n (n - 1)) 0)).
  (* conversion.py:125-185.  cuda_type of the output raises when that type is unmapped: it is then real and so is the input,
     whose cuda_type would raise the same error later. *)
  Definition generate_kernel (ty : in_type) (shape : list nat) (is os : sch) : res (list assignment * list nat * list nat * kind) :=
    do! (mapping, ishape, oshape, k) <- gpu_setup shape is os;
    if negb (Nat.eqb (prodn ishape) (prodn oshape)) then Raise ValueError
    else
      do! exprs <- assign_exprs mapping ishape oshape;
      match ty with TUnmapped => Raise ValueError | _ =>
        if negb (transposable (prodn ishape)) then Raise template_exn else Ok (exprs, ishape, oshape, k) end.
  (* a complex output is make_float2 of real inputs, a real output takes .x and .y of complex inputs; anything else does not
     compile (conversion.py:29-51; compiled by the first launch) *)
  Definition compiles (ty : in_type) (k : kind) : bool :=
    match ty, k with TReal, KComplex | TComplex, KReal => true | _, _ => false end.

  (* conversion.cu.j2:24-35 *)
  Definition load (elements nsrc mulup : nat) (inputs : nat -> cx) (source : nat) (regs : arr cx) : arr cx :=
    fst (for_ elements (fun elem (s : arr cx * nat) =>
           let '(regs, idx) := s in
           if Nat.ltb idx (elements * nsrc) then (upd regs elem (inputs idx), idx + mulup)%nat else (regs, idx)) (regs, source)).
  (* conversion.cu.j2:40-42 *)
  Definition assign (exprs : list assignment) (in_ out : arr cx) : arr cx :=
    fold_left (fun out (e : assignment) => let '(a, b, o, fn) := e in upd out o (fn (in_ a) (in_ b))) exprs out.
  (* conversion.cu.j2:47-59 *)
  Definition store (elements nsrc mulup : nat) (source : nat) (regs : arr cx) (outputs : nat -> cx) : nat -> cx :=
    fst (for_ elements (fun elem (s : (nat -> cx) * nat) =>
           let '(outputs, idx) := s in
           if Nat.ltb idx (elements * nsrc) then (upd outputs idx (regs elem), idx + mulup)%nat else (outputs, idx)) (outputs, source)).
  (* conversion.cu.j2:9-60 for the lanes source = group * elements, ..., group * elements + elements - 1; und: what the registers
     in and out of a thread hold before they are assigned *)
  Definition run_group (elements nsrc : nat) (exprs : list assignment) (und : nat -> arr cx * arr cx) (inputs : nat -> cx)
      (group : nat) (outputs : nat -> cx) : res (nat -> cx) :=
    let mulup := (elements * ((nsrc + (elements - 1)) / elements))%nat in
    let source := fun lane => (group * elements + lane)%nat in
    if Nat.leb mulup (source O) then Ok outputs
    else
      do! v <- warp_transpose elements (fun lane => load elements nsrc mulup inputs (source lane) (fst (und (source lane))));
      do! w <- warp_transpose elements (fun lane => assign exprs (v lane) (snd (und (source lane))));
      Ok (for_ elements (fun lane outputs => store elements nsrc mulup (source lane) (w lane) outputs) outputs).
  Fixpoint run_groups (elements nsrc : nat) (exprs : list assignment) (und : nat -> arr cx * arr cx) (inputs : nat -> cx)
      (order : list nat) (outputs : nat -> cx) : res (nat -> cx) :=
    match order with
    | [] => Ok outputs
    | g :: order' => do! o <- run_group elements nsrc exprs und inputs g outputs;
                     run_groups elements nsrc exprs und inputs order' o
    end.
  (* conversion.py:188-216; garbage: the content of cp.empty; order n: the order in which the n groups of the launch run *)
  Definition launch_convert (und : nat -> arr cx * arr cx) (garbage : nat -> cx) (order : nat -> list nat)
      (kernel : list assignment * list nat * list nat) (a : ndarr K) : res (ndarr K) :=
    let '(exprs, ishape, oshape) := kernel in
    let lead := init_n (List.length ishape) (nd_shape a) in
    let nsrc := prodn lead in
    let nelems := prodn ishape in
    do! g <- grids [Z.of_nat nsrc; 1; 1]%Z [512; 1; 1]%Z;
    do! o <- run_groups nelems nsrc exprs und (fun i => nd_at a (unravel (nd_shape a) i))
               (order (grid_dim g 0 * 512 / nelems)%nat) garbage;
    Ok {| nd_shape := (lead ++ oshape)%list; nd_at := fun idx => o (ravel (lead ++ oshape)%list idx) |}.
  Definition cuda_convert (ty : in_type) (und : nat -> arr cx * arr cx) (garbage : nat -> cx) (order : nat -> list nat)
      (a : ndarr K) (is os : sch) : res (ndarr K) :=
    do! (exprs, ishape, oshape, k) <- generate_kernel ty (nd_shape a) is os;
    if compiles ty k then launch_convert und garbage order (exprs, ishape, oshape) a else Raise compile_exn.
End Values.
