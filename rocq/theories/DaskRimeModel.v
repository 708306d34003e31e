(* Models of the dask wrappers phase_delay, parallactic_angles, feed_rotation and transform_sources of
   /repo/africanus/rime/dask.py, gaussian of model/shape/dask.py, spectra of model/wsclean/dask.py and convert of
   model/coherency/dask.py, of rime/jax/phase.py and of rime/parangles_casa.py.

   da.blockwise: an output element is read from the block that holds it; the block is the function applied to the blocks of
   the arguments with the same labels.  A label that is missing in the output arrives as a list of blocks.  Arguments that
   share a label are brought to common chunks by dask: the chunks below are those common ones. *)
From Coq Require Import Reals String.
From Verif Require Import Prelude CRing CplxR RimeModel SrcModel DftModel CohModel.
Open Scope R_scope.

(* l[0] *)
Definition first {A} (l : list A) : res A := match l with [] => Raise IndexError | x :: _ => Ok x end.
(* the list of blocks along a label that is not in the output, with their sizes *)
Definition listed {A} (chunks : list nat) (block : nat -> A) : list (nat * A) :=
  map (fun '(start, n) => (n, block start)) (starts O chunks).
(* compiled code that unpacks a row of [have] numbers into [want] variables, if its loop runs at all *)
Definition unpack (have want turns : nat) : res unit :=
  if (Nat.eqb turns 0 || Nat.eqb have want)%bool then Ok tt else Raise ValueError.

(* rime/dask.py:29-43 phase_delay; lmc and uvwc are the chunks of the component dimensions *)
Definition dask_phase_delay (src rows chans lmc uvwc : list nat) (lm uvw : arr2 R) (frequency : arr R) (convention : string)
    (s r f : nat) : res RC :=
  let '(s0, ns) := locate O src s in
  let '(r0, nr) := locate O rows r in
  let '(f0, nf) := locate O chans f in
  do! (nl, lmb) <- first (listed lmc (fun c0 i j => lm (s0 + i)%nat (c0 + j)%nat));
  do! (nu, uvwb) <- first (listed uvwc (fun c0 i j => uvw (r0 + i)%nat (c0 + j)%nat));
  do! block <- phase_delay ns nr nf lmb uvwb (fun k => frequency (f0 + k)%nat) convention;
  do! _ <- unpack nl 2 ns;
  do! _ <- unpack nu 3 (ns * nr);
  Ok (block (s - s0)%nat (r - r0)%nat (f - f0)%nat).

(* model/shape/dask.py:19-31 gaussian *)
Definition dask_gaussian (src rows chans uvwc shapec : list nat) (uvw : arr2 R) (frequency : arr R) (shape_params : arr2 R)
    (garbage : arr3 R) (s r f : nat) : res R :=
  let '(s0, ns) := locate O src s in
  let '(r0, nr) := locate O rows r in
  let '(f0, nf) := locate O chans f in
  do! (nu, uvwb) <- first (listed uvwc (fun c0 i j => uvw (r0 + i)%nat (c0 + j)%nat));
  do! (np, shapeb) <- first (listed shapec (fun c0 i j => shape_params (s0 + i)%nat (c0 + j)%nat));
  let block := gaussian ns nr nf uvwb (fun k => frequency (f0 + k)%nat) shapeb garbage in
  do! _ <- unpack np 3 ns;
  do! _ <- unpack nu 3 (ns * nr);
  Ok (block (s - s0)%nat (r - r0)%nat (f - f0)%nat).

(* rime/dask.py:82-107 transform_sources, component i; lmc: chunks of the label "lm", which both lm and the pointing errors
   carry *)
Definition dask_transform_sources (src times ants chans lmc : list nat) (lm pangles : arr2 R) (perr : arr3 R) (scaling : arr2 R)
    (frequency : arr R) (garbage : coords5) (i s t a c : nat) : res R :=
  let '(s0, ns) := locate O src s in
  let '(t0, nt) := locate O times t in
  let '(a0, na) := locate O ants a in
  let '(f0, nf) := locate O chans c in
  do! (nl, lmb) <- first (listed lmc (fun c0 i j => lm (s0 + i)%nat (c0 + j)%nat));
  do! (_, perrb) <- first (listed lmc (fun c0 i j k => perr (t0 + i)%nat (a0 + j)%nat (c0 + k)%nat));
  do! block <- transform_sources ns nt nt na nf nf na lmb (fun i j => pangles (t0 + i)%nat (a0 + j)%nat) perrb
                 (fun j k => scaling (a0 + j)%nat (f0 + k)%nat) (fun k => frequency (f0 + k)%nat) garbage;
  do! _ <- unpack nl 2 (nt * na * ns);
  Ok (block i (s - s0)%nat (t - t0)%nat (a - a0)%nat (c - f0)%nat).

(* ---------- parallactic angles ---------- *)
(* rime/parangles_casa.py:25-63.  The measures server is kept per thread and remembers the last epoch and the last position
   it was told; posangle reads both.  posangle is the library; do_frame returns True; positions are rows of [ncomp]
   numbers. *)
Definition pos_row (ncomp : nat) (pos : arr R) : list R := map pos (seq 0 ncomp).
Record server : Type := { epoch : option R; place : option (list R) }.
Section Casa.
  Context (posangle : option R -> option (list R) -> R * R -> R).
  (* lines 54-63: rows of the result and the server afterwards *)
  Fixpoint casa_row (positions : list (list R)) (fc : R * R) (sv : server) : list R * server :=
    match positions with
    | [] => ([], sv)
    | rp :: rest =>
        let sv := {| epoch := epoch sv; place := Some rp |} in
        let v := posangle (epoch sv) (place sv) fc in
        let '(row, sv) := casa_row rest fc sv in (v :: row, sv)
    end.
  Fixpoint casa_rows (times : list R) (positions : list (list R)) (fc : R * R) (sv : server) : list (list R) * server :=
    match times with
    | [] => ([], sv)
    | t :: rest =>
        let sv := {| epoch := Some t; place := place sv |} in
        let '(row, sv) := casa_row positions fc sv in
        let '(rows, sv) := casa_rows rest positions fc sv in (row :: rows, sv)
    end.
  Definition casa_parallactic_angles (ntime : nat) (times : arr R) (nant ncomp : nat) (positions : arr2 R) (fc : arr R) (sv : server)
    : list (list R) * server :=
    casa_rows (map times (seq 0 ntime)) (map (fun a => pos_row ncomp (positions a)) (seq 0 nant)) (fc 0%nat, fc 1%nat) sv.

  (* rime/parangles.py:54-75 with this backend; antenna_positions.sum(axis=1) in the test backend is over ncomp columns.
     The astropy backend is an unknown function. *)
  Context (astropy : nat -> arr R -> nat -> nat -> arr2 R -> arr R -> res (arr2 R)).
  Definition np_parallactic_angles (ntime : nat) (times : arr R) (nant ncomp : nat) (positions : arr2 R) (nfc : nat) (fc : arr R)
      (backend : string) (sv : server) : res (arr2 R) :=
    if negb (String.eqb backend "casa" || String.eqb backend "astropy" || String.eqb backend "test")%bool then Raise ValueError
    else if negb (Nat.eqb nfc 2) then Raise ValueError
    else if String.eqb backend "astropy" then astropy ntime times nant ncomp positions fc
    else if String.eqb backend "casa" then
      let rows := fst (casa_parallactic_angles ntime times nant ncomp positions fc sv) in
      Ok (fun t a => nth a (nth t rows []) 0)
    else Ok (fun t a => times t * fold_right Rplus 0 (pos_row ncomp (positions a))).

  (* rime/dask.py:46-60; the block runs in some thread, whose server is sv *)
  Definition dask_parallactic_angles (timec ants xyz fcc : list nat) (times : arr R) (positions : arr2 R) (fc : arr R)
      (backend : string) (sv : server) (t a : nat) : res R :=
    let '(t0, nt) := locate O timec t in
    let '(a0, na) := locate O ants a in
    do! (nx, posb) <- first (listed xyz (fun c0 i j => positions (a0 + i)%nat (c0 + j)%nat));
    do! (nc, fcb) <- first (listed fcc (fun c0 i => fc (c0 + i)%nat));
    do! block <- np_parallactic_angles nt (fun i => times (t0 + i)%nat) na nx posb nc fcb backend sv;
    Ok (block (t - t0)%nat (a - a0)%nat).
End Casa.

(* ---------- feed rotation ---------- *)
Fixpoint prodn (l : list nat) : nat := match l with [] => 1%nat | n :: l => (n * prodn l)%nat end.
(* positions in a flattened array, last index fastest *)
Fixpoint ravel (shape idx : list nat) : nat :=
  match shape, idx with
  | _ :: shape, i :: idx => (i * prodn shape + ravel shape idx)%nat
  | _, _ => O
  end.
Fixpoint unravel (shape : list nat) (i : nat) : list nat :=
  match shape with [] => [] | _ :: shape => (i / prodn shape)%nat :: unravel shape (i mod prodn shape)%nat end.
(* rime/feeds.py:51-72 for angles of any number of dimensions: flattened, rotated, reshaped.  reduce of an empty shape
   without initial value raises TypeError *)
Definition nd_feed_rotation (shape : list nat) (pa : list nat -> R) (is_float : bool) (feed_type : string) (garbage : arr3 RC)
  : res (list nat -> arr2 RC) :=
  do! _ <- (if String.eqb feed_type "linear" then Ok tt else if String.eqb feed_type "circular" then Ok tt else Raise ValueError);
  if negb is_float then Raise ValueError else
  match shape with
  | [] => Raise TypeError
  | _ => do! o <- feed_rotation (prodn shape) (fun i => pa (unravel shape i)) is_float feed_type garbage;
         Ok (fun idx => o (ravel shape idx))
  end.
Definition locate_all (chunks : list (list nat)) (idx : list nat) : list (nat * nat) :=
  map (fun '(c, i) => locate O c i) (combine chunks idx).
Definition shift (offs idx : list nat) : list nat := map (fun '(o, i) => (o + i)%nat) (combine offs idx).
Definition local (offs idx : list nat) : list nat := map (fun '(o, i) => (i - o)%nat) (combine offs idx).
(* rime/dask.py:63-79; the data type is checked when the graph is made *)
Definition dask_feed_rotation (chunks : list (list nat)) (pa : list nat -> R) (is_float : bool) (feed_type : string) (garbage : arr3 RC)
    (idx : list nat) (i j : nat) : res RC :=
  if negb is_float then Raise ValueError else
  let blk := locate_all chunks idx in
  let offs := map fst blk in
  do! block <- nd_feed_rotation (map snd blk) (fun k => pa (shift offs k)) is_float feed_type garbage;
  Ok (block (local offs idx) i j).

(* ---------- wsclean spectra ---------- *)
Definition log_block (lp : logpoly) (s0 ns : nat) : logpoly :=
  match lp with LScalar b => LScalar b | LArray _ a => LArray ns (fun i => a (s0 + i)%nat) end.
(* model/wsclean/dask.py:16-31; spic: the chunks of the coefficient dimension *)
Definition dask_spectra (src chans spic : list nat) (I : arr R) (coeffs : arr2 R) (lp : logpoly) (ref_freq frequency : arr R)
    (garbage : arr2 R) (s f : nat) : res R :=
  let '(s0, ns) := locate O src s in
  let '(f0, nf) := locate O chans f in
  do! (nk, cb) <- first (listed spic (fun c0 i j => coeffs (s0 + i)%nat (c0 + j)%nat));
  do! block <- spectra ns ns ns nf nk (fun i => I (s0 + i)%nat) cb (log_block lp s0 ns) (fun i => ref_freq (s0 + i)%nat)
                 (fun i => frequency (f0 + i)%nat) garbage;
  Ok (block (s - s0)%nat (f - f0)%nat).

(* ---------- coherency conversion ---------- *)
Section Convert.
  Context {K : cops} (half : K).
  (* all combinations of blocks of some dimensions *)
  Fixpoint combos (chunks : list (list nat)) : list (list (nat * nat)) :=
    match chunks with
    | [] => [[]]
    | c :: rest => flat_map (fun b => map (cons b) (combos rest)) (starts O c)
    end.
  (* model/coherency/dask.py:20-61: the correlation dimensions stay in the output of blockwise with one element per block,
     and the result is summed over them.  chunks: those of every dimension of the input *)
  Definition dask_convert (garbage : list nat -> cx K) (chunks : list (list nat)) (input : ndarr K) (is os : sch)
    : res (list nat -> res (cx K)) :=
    do! (m, ishape, oshape) <- convert_setup half input is os;
    let nfree := (List.length chunks - List.length ishape)%nat in
    let free := firstn nfree chunks in
    let corr := skipn nfree chunks in
    Ok (fun idx =>
      let fidx := firstn nfree idx in
      let oidx := skipn nfree idx in
      let blk := locate_all free fidx in
      let offs := map fst blk in
      fold_right (fun (cb : list (nat * nat)) (acc : res (cx K)) =>
        do! acc <- acc;
        do! block <- convert_impl garbage
          {| nd_shape := (map snd blk ++ map snd cb)%list; nd_at := fun k => nd_at input (shift (offs ++ map fst cb) k) |} m ishape oshape;
        Ok (xadd (nd_at block (local offs fidx ++ oidx)%list) acc)) (Ok cx0) (combos corr)).
End Convert.

(* ---------- rime/jax/phase.py:16-39 ---------- *)
(* complex multiplication by 1j and the complex exponential *)
Definition cexp (z : RC) : RC := (exp (fst z) * cos (snd z), exp (fst z) * sin (snd z)).
Definition jax_phase_delay (lm uvw : arr2 R) (frequency : arr R) (s r f : nat) : RC :=
  let l := lm s 0%nat in let m := lm s 1%nat in
  let u := uvw r 0%nat in let v := uvw r 1%nat in let w := uvw r 2%nat in
  let n := sqrt (1 - l ^ 2 - m ^ 2) - 1 in
  let real_phase := minus_two_pi_over_c * (l * u + m * v + n * w) * frequency f in
  cexp (0 * real_phase, 1 * real_phase).
