(* Model of /repo/africanus/gridding/nifty/dask.py.  The functions of the nifty_gridder library are unknown functions.
   Numbers are exact.  Names of arrays are left out of the keys: the graph of one correlation is modelled. *)
From Coq Require Import Reals.
From Verif Require Import Prelude CRing CplxR DftModel.
Close Scope R_scope.
Open Scope nat_scope.

(* lines 31-55 GridderConfigWrapper.__init__: what the wrapper holds, and the library object made of it *)
Record config : Type := { nx : nat; ny : nat; eps : R; csx : R; csy : R }.
Definition gridder_config (nx ny : nat) (eps csx csy : R) : config := {| nx := nx; ny := ny; eps := eps; csx := csx; csy := csy |}.
Record wrapper : Type := { w_nx : nat; w_ny : nat; w_csx : R; w_csy : R; w_eps : R; grid_config : config }.
Definition wrapper_init (nx ny : nat) (eps cell_size_x cell_size_y : R) : wrapper :=
  {| w_nx := nx; w_ny := ny; w_csx := cell_size_x; w_csy := cell_size_y; w_eps := eps;
     grid_config := gridder_config nx ny eps cell_size_x cell_size_y |}.
(* lines 53-55 __reduce__: the arguments the wrapper is rebuilt from, and the rebuilding *)
Definition wrapper_reduce (w : wrapper) : nat * nat * R * R * R := (w_nx w, w_ny w, w_eps w, w_csx w, w_csy w).
Definition wrapper_rebuild (t : nat * nat * R * R * R) : wrapper := let '(a, b, c, d, e) := t in wrapper_init a b c d e.
(* lines 58-61 normalize_gridder_config_wrapper *)
Definition wrapper_token (w : wrapper) : nat * nat * R * R * R := (w_nx w, w_ny w, w_csx w, w_csy w, w_eps w).

Definition grid2 : Type := arr2 RC.
(* the library.  Arrays come with their numbers of rows and channels *)
Record nifty : Type := {
  Bl : Type; Ix : Type;
  baselines : nat -> nat -> arr2 R -> arr R -> Bl;                                           (* Baselines(uvw, freq) *)
  get_indices : Bl -> config -> nat -> nat -> arr2 bool -> Z -> Z -> R -> R -> Ix;              (* getIndices *)
  ms2grid_c : Bl -> config -> Ix -> nat -> nat -> arr2 RC -> option grid2 -> arr2 R -> grid2;
  grid2ms_c : Bl -> config -> Ix -> grid2 -> arr2 RC
}.

(* ------------------------------------------------------------------ *)
(* The graph of the stream reduction *)
Inductive key : Type := KGrid (rb cb : nat) | KSum (i j : nat).
Inductive task : Type :=
| TGrid (baseline index : nat) (vis weight : nat * nat) (last : option key)
| TSum (grids : list key).
(* the values of range(0, n, step) *)
Definition range_step (n : nat) (step : Z) : res (list nat) :=
  if Z.eqb step 0 then Raise ValueError
  else if Z.ltb step 0 then Ok []
  else let s := Z.to_nat step in Ok (map (fun i => i * s) (seq 0 ((n + s - 1) / s))).
(* lines 177-180 row_block_chunks *)
Definition row_block_chunks (row_blocks : nat) (streams : Z) : res Z :=
  if Z.eqb streams 0 then Raise ZeroDivision else Ok ((Z.of_nat row_blocks + streams - 1) / streams)%Z.
(* lines 182-203: the tasks of one stream, from block rb on; n blocks *)
Fixpoint stream_tasks (rb n : nat) (last : option key) : list (key * task) :=
  match n with
  | O => []
  | S n => (KGrid rb 0, TGrid rb rb (rb, 0) (rb, 0) last) :: stream_tasks (S rb) n (Some (KGrid rb 0))
  end.
(* lines 160-203 GridStreamReduction._create_dict *)
Definition stream_dict (row_blocks : nat) (streams : Z) : res (list (key * task)) :=
  do! c <- row_block_chunks row_blocks streams;
  do! starts <- range_step row_blocks c;
  Ok (flat_map (fun rb_start => let rb_end := Nat.min (rb_start + Z.to_nat c) row_blocks in stream_tasks rb_start (rb_end - rb_start) None) starts).
(* lines 243-266 FinalGridReduction._create_dict *)
Definition final_dict (row_blocks : nat) (streams : Z) : res (list (key * task)) :=
  do! c <- row_block_chunks row_blocks streams;
  do! starts <- range_step row_blocks c;
  Ok [(KSum 0 0, TSum (map (fun rb_start => KGrid (Nat.min (rb_start + Z.to_nat c) row_blocks - 1) 0) starts))].
(* both layers; lines 157-158 and 239-241 the lengths they give *)
Definition graph (row_blocks : nat) (streams : Z) : res (list (key * task)) :=
  do! a <- stream_dict row_blocks streams; do! b <- final_dict row_blocks streams; Ok (a ++ b).
Definition stream_len (row_blocks : nat) : nat := row_blocks.
Definition final_len : nat := 1.

(* ------------------------------------------------------------------ *)
(* A scheduler with grids in memory.  A computed key has an address.  The library either adds into the grid it is given and
   returns that same grid (in_place) or returns a new one.  The inputs are there from the start.  A schedule is any list of
   keys: choosing a task that is not ready, does not exist or, unless [again], has been run does nothing. *)
Record mem : Type := { addr : key -> option nat; heap : nat -> grid2; next : nat }.
Definition start_mem : mem := {| addr := fun _ => None; heap := fun _ _ _ => c0; next := 0 |}.
Definition keqb (a b : key) : bool :=
  match a, b with
  | KGrid i j, KGrid i' j' | KSum i j, KSum i' j' => Nat.eqb i i' && Nat.eqb j j'
  | _, _ => false
  end.
Fixpoint find_task (l : list (key * task)) (k : key) : option task :=
  match l with [] => None | (k', t) :: r => if keqb k' k then Some t else find_task r k end.
Definition put (m : mem) (k : key) (a : nat) (g : grid2) : mem :=
  {| addr := fun k' => if keqb k k' then Some a else addr m k';
     heap := fun a' => if Nat.eqb a a' then g else heap m a';
     next := if Nat.eqb a (next m) then S (next m) else next m |}.
Fixpoint addrs (m : mem) (ks : list key) : option (list nat) :=
  match ks with
  | [] => Some []
  | k :: ks => match addr m k, addrs m ks with Some a, Some l => Some (a :: l) | _, _ => None end
  end.
Definition gadd (g h : grid2) : grid2 := fun u v => cadd (g u v) (h u v).
(* the builtin sum: 0 + g0 + g1 + ... *)
Definition sum_grids (gs : list grid2) : grid2 := fold_left gadd gs (fun _ _ => c0).
Section Scheduler.
  (* the task function: baselines, indices, visibilities and weights of the blocks given; grid_in *)
  Variable gridding : nat -> nat -> nat * nat -> nat * nat -> option grid2 -> grid2.
  Variable in_place again : bool.
  Variable dsk : list (key * task).
  Definition run_task (m : mem) (k : key) (t : task) : mem :=
    match t with
    | TGrid b i v w None => put m k (next m) (gridding b i v w None)
    | TGrid b i v w (Some l) =>
        match addr m l with
        | Some a => put m k (if in_place then a else next m) (gridding b i v w (Some (heap m a)))
        | None => m
        end
    | TSum ks => match addrs m ks with
                 | Some l => put m k (next m) (sum_grids (map (heap m) l))
                 | None => m
                 end
    end.
  Definition done (m : mem) (k : key) : bool := match addr m k with Some _ => true | None => false end.
  Definition exec (m : mem) (k : key) : mem :=
    match find_task dsk k with
    | Some t => if done m k && negb again then m else run_task m k t
    | None => m
    end.
  Definition execute (sched : list key) : mem := fold_left exec sched start_mem.
  Definition value (m : mem) (k : key) : option grid2 := match addr m k with Some a => Some (heap m a) | None => None end.
End Scheduler.

(* ------------------------------------------------------------------ *)
(* The data given: vis, flags and weights (row, chan, corr), uvw and frequencies *)
Record data : Type := { d_nchan : nat; d_ncorr : nat; d_uvw : arr2 R; d_freq : arr R; d_vis : arr3 RC; d_flags : arr3 bool; d_weights : arr3 R }.
Section Wrappers.
  Variable N : nifty.
  Variable gc : config.
  Variables wmin wmax : R.
  Variable d : data.
  (* rows r0 to r0 + n of one correlation: lines 90-100, 344-352 and 358-367; -1 for the channels *)
  Definition block_base (r0 n : nat) : Bl N := baselines N n (d_nchan d) (fun r i => d_uvw d (r0 + r) i) (d_freq d).
  Definition block_index (r0 n corr : nat) : Ix N :=
    get_indices N (block_base r0 n) gc n (d_nchan d) (fun r c => d_flags d (r0 + r) c corr) (-1) (-1) wmin wmax.
  Definition block_vis (r0 corr : nat) : arr2 RC := fun r c => d_vis d (r0 + r) c corr.
  Definition block_weights (r0 corr : nat) : arr2 R := fun r c => d_weights d (r0 + r) c corr.
  (* lines 103-118: the grid of a block *)
  Definition block_grid (r0 n corr : nat) (grid_in : option grid2) : grid2 :=
    ms2grid_c N (block_base r0 n) gc (block_index r0 n corr) n (d_nchan d) (block_vis r0 corr) grid_in (block_weights r0 corr).
  (* the task function for row chunks [rows]: the blocks named by their numbers.  A visibility block with its channel block not
     0 does not exist as vis has a single chunk of channels *)
  Definition first_row (rows : list nat) (rb : nat) : nat := list_sum (firstn rb rows).
  Definition row_count (rows : list nat) (rb : nat) : nat := nth rb rows 0.
  Definition stream_gridding (rows : list nat) (corr : nat) (b i : nat) (v w : nat * nat) (grid_in : option grid2) : grid2 :=
    ms2grid_c N (block_base (first_row rows b) (row_count rows b)) gc (block_index (first_row rows i) (row_count rows i) corr)
      (row_count rows (fst v)) (d_nchan d) (block_vis (first_row rows (fst v)) corr) grid_in (block_weights (first_row rows (fst w)) corr).
  (* lines 369-383 without streams: the sum over the row blocks *)
  Definition blockwise_grid (rows : list nat) (corr : nat) : grid2 :=
    sum_grids (map (fun rb => block_grid (first_row rows rb) (row_count rows rb) corr None) (seq 0 (length rows))).
  (* lines 269-407 grid, for one output plane: g is a possible result.  freq_chunks are the chunks of the frequencies. *)
  Inductive grid_result (freq_chunks rows : list nat) (streams : option Z) (in_place : bool) (corr : nat) : res grid2 -> Prop :=
  | r_chunks : length freq_chunks <> 1 -> grid_result freq_chunks rows streams in_place corr (Raise ValueError)
  | r_blockwise : length freq_chunks = 1 -> streams = None -> grid_result freq_chunks rows streams in_place corr (Ok (blockwise_grid rows corr))
  | r_error s e : length freq_chunks = 1 -> streams = Some s -> graph (length rows) s = Raise e -> grid_result freq_chunks rows streams in_place corr (Raise e)
  | r_streams s dsk sched g : length freq_chunks = 1 -> streams = Some s -> graph (length rows) s = Ok dsk ->
      value (execute (stream_gridding rows corr) in_place false dsk sched) (KSum 0 0) = Some g -> grid_result freq_chunks rows streams in_place corr (Ok g).
  (* lines 491-571 degrid: visibility of row r, channel c of one correlation; ncx and ncy chunks of the grid in its two axes *)
  Definition degrid (freq_chunks rows : list nat) (ncx ncy : nat) (grid : arr3 RC) (corr r c : nat) : res RC :=
    if negb (Nat.eqb (length freq_chunks) 1) then Raise ValueError
    else if negb (Nat.eqb ncx 1 && Nat.eqb ncy 1) then Raise AssertionError
    else let '(r0, n) := locate 0 rows r in
         Ok (grid2ms_c N (block_base r0 n) gc (block_index r0 n corr) (fun u v => grid u v corr) (r - r0) c).
End Wrappers.
