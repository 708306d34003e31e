(* Model of /repo/africanus/calibration/utils/examples/apply_gains_to_ms.py.  The measurement set has one field and one
   data description, so that xds_from_ms gives one dataset with all rows; the channels are in one chunk (only "row" is
   chunked on line 86).  Left out: the command line, the thread pool, the cast to complex64 (line 79) and the writing. *)
From Verif Require Import Prelude CRing CField PredictModel CalModel.
Open Scope nat_scope.

(* da.from_array(x, chunks=k) for an axis of n elements: blocks of k and a smaller last one *)
Definition chunk_sizes (n k : nat) : list nat := map (fun c => Nat.min k (n - c * k)) (seq 0 ((n + k - 1) / k)).
(* the block that holds element r, and its position in the block *)
Fixpoint locate (l : list nat) (r : nat) : nat * nat :=
  match l with
  | [] => (0, r)
  | c :: cs => if Nat.ltb r c then (0, r) else let '(b, r') := locate cs (r - c) in (S b, r')
  end.
Definition is_raise {A} (x : res A) : bool := match x with Ok _ => false | Raise _ => true end.

Section ApplyGains.
  Context {F : fops}.
  (* lines 91-102: the columns stacked along the direction, correlations reshaped to 2 x 2 if there are more than two *)
  Definition stacked (nrow nchan ncorr ndir : nat) (cols : nat -> nat -> nat -> nat -> F) : model_arr F :=
    let big := Nat.ltb 2 ncorr in
    {| m_ndim := if big then 5 else 4; m_row := nrow; m_chan := nchan; m_dir := ndir; m_corr := if big then 2 else ncorr;
       m_at := fun r f s i j => cols s r f (if big then 2 * i + j else i) |}.
  (* blockwise with align_arrays=False: gains in one block of times are given to every block of rows.  A block of rows
     starts at a multiple of upc, so the time within the block is the remainder. *)
  Definition broadcast_gains (upc : nat) (g : gain_arr F) : gain_arr F :=
    {| j_ndim := j_ndim g; j_tim := j_tim g; j_chan := j_chan g; j_dir := j_dir g; j_at := fun t => j_at g (t mod upc) |}.
  (* lines 58-112.  cols d: model column d; g: the gains of the file, j_at outside its dimensions is whatever memory
     holds there (Numba does not check).  The result is the output column. *)
  Definition apply_gains (nrow : nat) (time : arr Z) (upc nant : nat) (ant1 ant2 : arr nat) (nchan ncorr ndir : nat)
             (cols : nat -> nat -> nat -> nat -> F) (g : gain_arr F) : res (nat -> nat -> nat -> F) :=
    do! (rows, idx, cnts) <- chunkify_rows nrow time upc;                                    (* line 60 *)
    let jt := chunk_sizes (j_tim g) upc in                                                   (* lines 82-83 *)
    let ch := {| cc_row := rows; cc_time := chunk_sizes (length idx) upc; cc_chan := [nchan]; cc_jant := [nant]; cc_jdir := [j_dir g];
                 cc_mdir := chunk_sizes ndir 3 |} in                                         (* lines 62-63, 94 *)
    let big := Nat.ltb 2 ncorr in
    if (big && negb (Nat.eqb ncorr 4))%bool then Raise ValueError else                       (* line 99 *)
    let g' := if (Nat.eqb (length jt) 1 && Nat.ltb 1 (length rows))%bool then broadcast_gains upc g else g in
    do! blocks <- dask_corrupt_vis ch nant (fun t => Z.of_nat (nth t idx 0)) (fun t => nth t cnts 0) ant1 ant2 g' (stacked nrow nchan ncorr ndir cols);
    if negb (Nat.eqb (length jt) (length rows) || Nat.eqb (length jt) 1)%bool then Raise ValueError else   (* "Shapes do not align", or adjust_chunks *)
    if existsb (fun rb => is_raise (blocks rb 0)) (seq 0 (length rows)) then Raise ValueError else   (* min() of no times *)
    Ok (fun r f c => let '(rb, r') := locate rows r in
          match blocks rb 0 with Ok (_, v) => if big then v_at v r' f (c / 2) (c mod 2) else v_at v r' f c 0 | Raise _ => 0%K end).
End ApplyGains.
