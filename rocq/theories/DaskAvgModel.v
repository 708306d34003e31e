(* Model of /repo/africanus/averaging/dask.py.

   Simplifications: every array is cut the same way along a shared dimension (row, chan, corr), the uvw dimension is not
   cut, and the output arrays of one task are kept in the records of AvgModel2.v.  A dask array is modelled by its
   blocks and by the chunk sizes it declares; np.nan is None. *)
From Verif Require Import Prelude AvgModel AvgModel2.

(* dask slices a dimension into consecutive blocks of the given sizes *)
Definition chunk_start (chunks : list nat) (k : nat) : nat := list_sum (firstn k chunks).
Definition chunk_size (chunks : list nat) (k : nat) : nat := nth k chunks 0.

Record avg_chunks : Type := { ch_rows : list nat; ch_chans : list nat; ch_corrs : list nat }.

(* blocks of arrays whose first, second and third extents start at the given offsets *)
Definition block1 {A} (i0 : nat) (a : arr A) : arr A := fun i => a (i0 + i).
Definition block2 {A} (i0 j0 : nat) (a : arr2 A) : arr2 A := fun i j => a (i0 + i) (j0 + j).
Definition block3 {A} (i0 j0 k0 : nat) (a : arr3 A) : arr3 A := fun i j k => a (i0 + i) (j0 + j) (k0 + k).

Section DaskAveraging.
  Context (F : arith) (K : farith).
  Notation input := (tc_input F K).

  (* dask.py:247-267 merge_flags, row block r.  concatenate=True joins the channel and correlation blocks of flag. *)
  Definition flag_row_block (ch : avg_chunks) (t : input) (r : nat) : res (option (arr Z)) :=
    let r0 := chunk_start (ch_rows ch) r in
    merge_flags (chunk_size (ch_rows ch) r) (list_sum (ch_chans ch)) (list_sum (ch_corrs ch))
                (option_map (block1 r0) (t_flag_row F K t))
                (option_map (block3 r0 0 0) (in_flag K (t_cells F K t))).

  (* dask.py:62-74 row_mapper, row block r *)
  Definition row_meta_block (ch : avg_chunks) (t : input) (r : nat) : res (row_map_output F) :=
    let r0 := chunk_start (ch_rows ch) r in
    do! flag_row <- flag_row_block ch t r;
    row_mapper F (chunk_size (ch_rows ch) r) (block1 r0 (t_time F K t)) (block1 r0 (t_interval F K t))
               (block1 r0 (t_ant1 F K t)) (block1 r0 (t_ant2 F K t)) flag_row (t_secs F K t).

  (* dask.py:95-102 _row_average_wrapper: weight[0] and sigma[0] are the first correlation blocks *)
  Definition row_cols_block (ch : avg_chunks) (r : nat) (x : row_cols K) : row_cols K :=
    let r0 := chunk_start (ch_rows ch) r in
    {| in_tc := option_map (block1 r0) (in_tc K x);
       in_exp := option_map (block1 r0) (in_exp K x);
       in_uvw := option_map (block2 r0 0) (in_uvw K x);
       in_weight := option_map (fun w => (chunk_size (ch_corrs ch) 0, block2 r0 0 (snd w))) (in_weight K x);
       in_sigma := option_map (fun s => (chunk_size (ch_corrs ch) 0, block2 r0 0 (snd s))) (in_sigma K x) |}.

  (* dask.py:105-137 row_average, row block r *)
  Definition row_average_block (ch : avg_chunks) (t : input) (ant_init : arr Z) (r : nat) : res (row_avg_out K) :=
    let r0 := chunk_start (ch_rows ch) r in
    do! flag_row <- flag_row_block ch t r;
    do! rm <- row_meta_block ch t r;
    Ok (row_average K (chunk_size (ch_rows ch) r) (rm_out_rows F rm) (rm_map F rm) (rm_flag_row F rm)
                    (block1 r0 (t_ant1 F K t)) (block1 r0 (t_ant2 F K t)) flag_row
                    (row_cols_block ch r (t_rows F K t)) ant_init).

  (* dask.py:33-59 chan_metadata: the channel mapper runs on every channel chunk on its own *)
  Definition chan_meta_block (ch : avg_chunks) (t : input) (k : nat) : arr nat * nat :=
    channel_mapper (chunk_size (ch_chans ch) k) (t_bin_size F K t).

  (* dask.py:218-244 chan_average, channel block k *)
  Definition chan_average_block (ch : avg_chunks) (t : input) (k : nat) : chan_avg_out K :=
    let f0 := chunk_start (ch_chans ch) k in
    let '(cmap, out_chans) := chan_meta_block ch t k in
    let cut v := option_map (block1 f0) (vals K v) in
    chan_average K (chunk_size (ch_chans ch) k) out_chans cmap
                 (cut (t_freq F K t)) (cut (t_width F K t)) (cut (t_ebw F K t)) (cut (t_res F K t)).

  (* The arguments of one (row, chan, corr) task *)
  Definition chan_cols_block (ch : avg_chunks) (r k c : nat) (x : chan_cols K) : chan_cols K :=
    let r0 := chunk_start (ch_rows ch) r in
    let f0 := chunk_start (ch_chans ch) k in
    let c0 := chunk_start (ch_corrs ch) c in
    {| in_rweight := option_map (block2 r0 c0) (in_rweight K x);
       in_vis := option_map (block3 r0 f0 c0) (in_vis K x);
       in_flag := option_map (block3 r0 f0 c0) (in_flag K x);
       in_wspec := option_map (block3 r0 f0 c0) (in_wspec K x);
       in_sspec := option_map (block3 r0 f0 c0) (in_sspec K x) |}.

  (* dask.py:159-202 row_chan_average, block (r, k, c); the number of correlations is inferred from the cube blocks
     (time_and_channel_avg.py:530-533) *)
  Definition cells_block (ch : avg_chunks) (t : input) (r k c : nat) : res (arr3 (out_cell K)) :=
    let nf := chunk_size (ch_chans ch) k in
    let nc := chunk_size (ch_corrs ch) c in
    let shape (s : option (nat * nat)) := option_map (fun _ => (nf, nc)) s in
    do! flag_row <- flag_row_block ch t r;
    do! rm <- row_meta_block ch t r;
    do! s <- chan_corrs (shape (t_vis_sh F K t)) (shape (t_flag_sh F K t)) (shape (t_ws_sh F K t))
                        (shape (t_ss_sh F K t)) None None None None;
    let '(cmap, out_chans) := chan_meta_block ch t k in
    row_chan_average K (chunk_size (ch_rows ch) r) nf (snd s) (rm_out_rows F rm) out_chans
                     (rm_map F rm) cmap flag_row (rm_flag_row F rm) (chan_cols_block ch r k c (t_cells F K t)).

  (* lambda c: (c + chan_bin_size - 1) // chan_bin_size, dask.py:172 and 225 *)
  Definition adjusted (bin_size c : nat) : nat := (c + bin_size - 1) / bin_size.

  Record dask_avg : Type := {
    da_row_meta : nat -> res (row_map_output F);      (* time, interval and flag_row blocks *)
    da_row : nat -> res (row_avg_out K);
    da_chan : nat -> chan_avg_out K;
    da_cells : nat -> nat -> nat -> res (arr3 (out_cell K));
    da_out_chans : nat -> nat;                        (* channel extent of the blocks of both kinds *)
    da_row_corrs : nat;                               (* correlation extent of the blocks of weight and sigma *)
    da_declared_rows : list (option nat);             (* chunks of the row dimension *)
    da_declared_vec_chans : list nat;                 (* chunks of chan_freq and its companions *)
    da_declared_cube_chans : list nat;                (* channel chunks of vis and its companions *)
    da_declared_row_corrs : list nat                  (* correlation chunks of weight and sigma *)
  }.

  Definition given {A} (o : option A) : bool := match o with Some _ => true | None => false end.
  Definition any_cube (t : input) : bool :=
    given (t_vis_sh F K t) || given (t_flag_sh F K t) || given (t_ws_sh F K t) || given (t_ss_sh F K t).
  Definition any_vec (t : input) : bool :=
    given (t_freq F K t) || given (t_width F K t) || given (t_ebw F K t) || given (t_res F K t).

  (* dask.py:270-337 time_and_channel.  Building the graph fails
     - if no array has channels: chan_metadata returns None and line 222 calls ChannelAverageOutput, which has four
       fields, with two arguments;
     - if channel vectors are given but no cube and no weight: the output index "corr" of the blockwise call on line 182
       belongs to no input ("Unknown dimension", ValueError);
     - if the bin size is 0: division by zero in the lambda on line 172.
     Line 313 calls chan_average without chan_bin_size, so its lambda (line 225) uses the default 1. *)
  Definition dask_time_and_channel (ch : avg_chunks) (t : input) (ant_init : arr Z) : res dask_avg :=
    if negb (any_cube t || any_vec t) then Raise TypeError
    else if negb (any_cube t || given (in_rweight K (t_cells F K t))) then Raise ValueError
    else if Nat.eqb (t_bin_size F K t) 0 then Raise ZeroDivision
    else Ok {| da_row_meta := row_meta_block ch t;
               da_row := row_average_block ch t ant_init;
               da_chan := chan_average_block ch t;
               da_cells := cells_block ch t;
               da_out_chans := fun k => snd (chan_meta_block ch t k);
               da_row_corrs := chunk_size (ch_corrs ch) 0;
               da_declared_rows := map (fun _ => None) (ch_rows ch);
               da_declared_vec_chans := map (adjusted 1) (ch_chans ch);
               da_declared_cube_chans := map (adjusted (t_bin_size F K t)) (ch_chans ch);
               da_declared_row_corrs := [list_sum (ch_corrs ch)] |}.
End DaskAveraging.
