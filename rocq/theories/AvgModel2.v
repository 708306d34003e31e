(* Model of /repo/africanus/averaging/time_and_channel_avg.py.

   Simplification used throughout: the several output arrays of a function, which
   all have the same leading extents and are updated together, are modelled as ONE
   array of records (one record per output row / output cell). *)
From Verif Require Import Prelude AvgModel.

(* Floating point operations on real columns and on visibilities, ops only. *)
Record farith : Type := {
  fnum : Type;
  f0 : fnum;
  f1 : fnum;
  fadd : fnum -> fnum -> fnum;
  fmul : fnum -> fnum -> fnum;
  fdiv : fnum -> fnum -> fnum;
  fdivn : fnum -> nat -> fnum;        (* x / count *)
  fsqrt : fnum -> fnum;
  fnonzero : fnum -> bool;            (* x != 0.0 *)
  cnum : Type;                        (* visibilities *)
  c0 : cnum;
  cadd : cnum -> cnum -> cnum;
  cscale : cnum -> fnum -> cnum;      (* vis * wt *)
  cdiv : cnum -> fnum -> cnum         (* vis / wsum *)
}.

(* time_and_channel_avg.py:15-25 matching_flag_factory.  When flag_row is present
   so is the row map's flag_row (time_and_channel_mapping.py:28-36). *)
Definition flags_match (flag_row oflag : option (arr Z)) (ri ro : nat) : bool :=
  match flag_row, oflag with
  | Some f, Some o => Z.eqb (f ri) (o ro)
  | _, _ => true
  end.

Section Averaging.
  Context (K : farith).
  Notation V := (fnum K).
  Notation C := (cnum K).
  Notation "x '^2'" := (fmul K x x) (at level 30).

  (* ---------------------------------------------------------------- *)
  (* lines 31-156 row_average                                          *)

  (* One output row of the zero-initialised accumulators, lines 45-80. *)
  Record row_cell : Type := {
    rc_count : nat;
    rc_uvw : arr V;             (* three entries *)
    rc_tc : V;
    rc_exp : V;
    rc_weight : arr V;
    rc_sigma : arr V;
    rc_swsum : arr V
  }.
  Definition row_cell0 : row_cell :=
    {| rc_count := 0; rc_uvw := fun _ => f0 K; rc_tc := f0 K; rc_exp := f0 K;
       rc_weight := fun _ => f0 K; rc_sigma := fun _ => f0 K; rc_swsum := fun _ => f0 K |}.

  (* The optional input columns; weight and sigma carry their correlation extent. *)
  Record row_cols : Type := {
    in_tc : option (arr V);
    in_exp : option (arr V);
    in_uvw : option (arr2 V);
    in_weight : option (nat * arr2 V);
    in_sigma : option (nat * arr2 V)
  }.

  (* a[i] += v *)
  Definition inc (a : arr V) (i : nat) (v : V) : arr V := upd a i (fadd K (a i) v).

  (* Lines 88-117: contribution of input row [i] to its output row. *)
  Definition row_add (x : row_cols) (i : nat) (r : row_cell) : row_cell :=
    let uvw' := match in_uvw x with
                | Some u => inc (inc (inc (rc_uvw r) 0 (u i 0)) 1 (u i 1)) 2 (u i 2)
                | None => rc_uvw r
                end in
    let tc' := match in_tc x with Some t => fadd K (rc_tc r) (t i) | None => rc_tc r end in
    let exp' := match in_exp x with Some e => fadd K (rc_exp r) (e i) | None => rc_exp r end in
    let wt' := match in_weight x with
               | Some (nc, w) => for_ nc (fun co a => inc a co (w i co)) (rc_weight r)
               | None => rc_weight r
               end in
    let '(sg', sw') :=
      match in_sigma x with
      | Some (nc, s) =>
          for_ nc (fun co (p : arr V * arr V) =>
                     let '(sg, sw) := p in
                     let sva := (s i co) ^2 in
                     let '(sva, dw) :=
                       match in_weight x with
                       | Some (_, w) => (fmul K sva ((w i co) ^2), w i co)
                       | None => (sva, f1 K)
                       end in
                     (inc sg co sva, inc sw co dw))
               (rc_sigma r, rc_swsum r)
      | None => (rc_sigma r, rc_swsum r)
      end in
    {| rc_count := S (rc_count r); rc_uvw := uvw'; rc_tc := tc'; rc_exp := exp';
       rc_weight := wt'; rc_sigma := sg'; rc_swsum := sw' |}.

  (* Lines 126-149: normalisation of one output row. *)
  Definition row_norm (x : row_cols) (r : row_cell) : row_cell :=
    if Nat.ltb 0 (rc_count r) then
      {| rc_count := rc_count r;
         rc_uvw := match in_uvw x with
                   | Some _ =>
                       let d a k := upd a k (fdivn K (a k) (rc_count r)) in
                       d (d (d (rc_uvw r) 0) 1) 2
                   | None => rc_uvw r
                   end;
         rc_tc := match in_tc x with
                  | Some _ => fdivn K (rc_tc r) (rc_count r) | None => rc_tc r end;
         rc_exp := rc_exp r;
         rc_weight := rc_weight r;
         rc_sigma := match in_sigma x with
                     | Some (nc, _) =>
                         for_ nc (fun co sg =>
                                    let ssva := sg co in
                                    let wt := rc_swsum r co in
                                    let ssva := if fnonzero K wt then fdiv K ssva (wt ^2)
                                                else ssva in
                                    upd sg co (fsqrt K ssva)) (rc_sigma r)
                     | None => rc_sigma r
                     end;
         rc_swsum := rc_swsum r |}
    else r.

  Record row_avg_out : Type := {
    ra_ant1 : arr Z; ra_ant2 : arr Z;
    ra_cells : arr row_cell
  }.

  (* [ant_init] is the content of the np.empty antenna arrays, lines 48-49. *)
  Definition row_average (n out_rows : nat) (rmap : arr nat) (oflag : option (arr Z))
             (ant1 ant2 : arr Z) (flag_row : option (arr Z)) (x : row_cols)
             (ant_init : arr Z) : row_avg_out :=
    let '(cells, a1, a2) :=
      for_ n (fun i (s : arr row_cell * arr Z * arr Z) =>
                let '(cells, a1, a2) := s in
                let o := rmap i in
                let cells' := if flags_match flag_row oflag i o
                              then upd cells o (row_add x i (cells o)) else cells in
                (cells', upd a1 o (ant1 i), upd a2 o (ant2 i)))
           ((fun _ => row_cell0), ant_init, ant_init) in
    {| ra_ant1 := a1; ra_ant2 := a2;
       ra_cells := for_ out_rows (fun k cs => upd cs k (row_norm x (cs k))) cells |}.

  (* ---------------------------------------------------------------- *)
  (* lines 488-638 row_chan_average                                    *)

  Record chan_cols : Type := {
    in_rweight : option (arr2 V);
    in_vis : option (arr3 C);
    in_flag : option (arr3 Z);
    in_wspec : option (arr3 V);
    in_sspec : option (arr3 V)
  }.

  (* One output cell of one bank (unflagged or flagged) of accumulators,
     lines 529-549. *)
  Record bank : Type := {
    b_count : nat;
    b_vis : C; b_vwsum : V;
    b_wspec : V;
    b_sspec : V; b_swsum : V
  }.
  Definition bank0 : bank :=
    {| b_count := 0; b_vis := c0 K; b_vwsum := f0 K; b_wspec := f0 K;
       b_sspec := f0 K; b_swsum := f0 K |}.

  (* Lines 183-276: the adders, for sample (i, ch, co). *)
  Definition bank_add (x : chan_cols) (i ch co : nat) (b : bank) : bank :=
    let '(vis', vw') :=
      match in_vis x with
      | None => (b_vis b, b_vwsum b)
      | Some v =>
          match in_wspec x, in_rweight x with
          | Some w, _ => (cadd K (b_vis b) (cscale K (v i ch co) (w i ch co)),
                          fadd K (b_vwsum b) (w i ch co))
          | None, Some w => (cadd K (b_vis b) (cscale K (v i ch co) (w i co)),
                             fadd K (b_vwsum b) (w i co))
          | None, None => (cadd K (b_vis b) (v i ch co), fadd K (b_vwsum b) (f1 K))
          end
      end in
    let ws' := match in_wspec x with
               | Some w => fadd K (b_wspec b) (w i ch co) | None => b_wspec b end in
    let '(ss', sw') :=
      match in_sspec x with
      | None => (b_sspec b, b_swsum b)
      | Some s =>
          match in_wspec x, in_rweight x with
          | Some w, _ => (fadd K (b_sspec b) (fmul K ((s i ch co) ^2) ((w i ch co) ^2)),
                          fadd K (b_swsum b) (w i ch co))
          | None, Some w => (fadd K (b_sspec b) (fmul K ((s i ch co) ^2) ((w i co) ^2)),
                             fadd K (b_swsum b) (w i co))
          | None, None => (fadd K (b_sspec b) ((s i ch co) ^2), fadd K (b_swsum b) (f1 K))
          end
      end in
    {| b_count := S (b_count b); b_vis := vis'; b_vwsum := vw';
       b_wspec := ws'; b_sspec := ss'; b_swsum := sw' |}.

  (* Lines 457-465 is_chan_flagged *)
  Definition is_chan_flagged (x : chan_cols) (i ch co : nat) : bool :=
    match in_flag x with Some f => negb (Z.eqb (f i ch co) 0) | None => false end.

  (* A cell: the unflagged bank, the flagged bank. *)
  Definition cell : Type := (bank * bank)%type.
  Definition cell_add (x : chan_cols) (i ch co : nat) (c : cell) : cell :=
    if is_chan_flagged x i ch co
    then (fst c, bank_add x i ch co (snd c))
    else (bank_add x i ch co (fst c), snd c).

  (* Lines 556-600: accumulation over rows, channels and correlations. *)
  Definition accumulate (n nchan ncorr : nat) (rmap cmap : arr nat)
             (flag_row oflag : option (arr Z)) (x : chan_cols) : arr3 cell :=
    for_ n (fun i a =>
      if flags_match flag_row oflag i (rmap i) then
        for_ nchan (fun ch a =>
          for_ ncorr (fun co a =>
            upd3 a (rmap i) (cmap ch) co
                 (cell_add x i ch co (a (rmap i) (cmap ch) co))) a) a
      else a) (fun _ _ _ => (bank0, bank0)).

  (* One output cell. *)
  Record out_cell : Type := {
    oc_vis : C; oc_flag : Z; oc_wspec : V; oc_sspec : V
  }.

  (* Lines 279-290 vis_normaliser: (out, in, wsum) -> out *)
  Definition vis_norm (out inp : C) (wsum : V) : C :=
    if fnonzero K wsum then cdiv K inp wsum else out.
  (* Lines 293-307 sigma_spectrum_normaliser *)
  Definition sigma_norm (out inp wsum : V) : V :=
    if fnonzero K wsum then fsqrt K (fdiv K inp (wsum ^2)) else out.

  (* Lines 602-633, body of the normalisation loops.  Entries for absent arrays are
     never returned, so the normalisers are applied unconditionally. *)
  Definition cell_norm (c : cell) : res out_cell :=
    let '(u, f) := c in
    if Nat.ltb 0 (b_count u) then
      Ok {| oc_vis := vis_norm (b_vis u) (b_vis u) (b_vwsum u);
            oc_flag := 0%Z;
            oc_wspec := b_wspec u;
            oc_sspec := sigma_norm (b_sspec u) (b_sspec u) (b_swsum u) |}
    else if Nat.ltb 0 (b_count f) then
      Ok {| oc_vis := vis_norm (b_vis u) (b_vis f) (b_vwsum f);
            oc_flag := 1%Z;
            oc_wspec := b_wspec f;
            oc_sspec := sigma_norm (b_sspec u) (b_sspec f) (b_swsum f) |}
    else Raise ZeroFilledBin.

  Definition out_cell0 : out_cell :=
    {| oc_vis := c0 K; oc_flag := 0%Z; oc_wspec := f0 K; oc_sspec := f0 K |}.

  Definition normalise (out_rows out_chans ncorr : nat) (a : arr3 cell) : res (arr3 out_cell) :=
    forM out_rows (fun r o =>
      forM out_chans (fun f o =>
        forM ncorr (fun c o =>
          do! v <- cell_norm (a r f c); Ok (upd3 o r f c v)) o) o)
      (fun _ _ _ => out_cell0).

  (* Whole function; ncorr is what chan_corrs infers (modelled below). *)
  Definition row_chan_average (n nchan ncorr out_rows out_chans : nat) (rmap cmap : arr nat)
             (flag_row oflag : option (arr Z)) (x : chan_cols) : res (arr3 out_cell) :=
    normalise out_rows out_chans ncorr (accumulate n nchan ncorr rmap cmap flag_row oflag x).

  (* ---------------------------------------------------------------- *)
  (* lines 645-693 chan_average                                        *)

  (* Sum of a channel column into bins, lines 671-685. *)
  Definition chan_sum (nchan : nat) (cmap : arr nat) (col : arr V) : arr V :=
    for_ nchan (fun ch a => inc a (cmap ch) (col ch)) (fun _ => f0 K).
  Definition chan_counts (nchan : nat) (cmap : arr nat) : arr nat :=
    for_ nchan (fun ch a => upd a (cmap ch) (S (a (cmap ch)))) (fun _ => 0).
  Definition chan_freq_mean (nchan out_chans : nat) (cmap : arr nat) (col : arr V) : arr V :=
    let counts := chan_counts nchan cmap in
    for_ out_chans (fun b a => upd a b (fdivn K (a b) (counts b))) (chan_sum nchan cmap col).

  Record chan_avg_out : Type := {
    ca_freq : option (arr V); ca_width : option (arr V);
    ca_ebw : option (arr V); ca_res : option (arr V)
  }.
  Definition chan_average (nchan out_chans : nat) (cmap : arr nat)
             (freq width ebw resn : option (arr V)) : chan_avg_out :=
    {| ca_freq := option_map (chan_freq_mean nchan out_chans cmap) freq;
       ca_width := option_map (chan_sum nchan cmap) width;
       ca_ebw := option_map (chan_sum nchan cmap) ebw;
       ca_res := option_map (chan_sum nchan cmap) resn |}.
End Averaging.

(* ------------------------------------------------------------------ *)
(* lines 334-454 shape_or_invalid_shape, find_chan_corr, chan_corrs.     *)

(* An array argument: absent (None) or present with its channel extent and, for
   3-D arrays, its correlation extent.  The -1 markers are the [None]s. *)
Definition find_dim (cur : nat) (dim : option nat) : res nat :=
  match dim with
  | None => Ok cur                       (* array_chan == -1, or idx == -1 *)
  | Some d => if Nat.eqb cur 0 then Ok d
              else if Nat.eqb cur d then Ok cur else Raise ValueError
  end.
Definition find_chan_corr (s : nat * nat) (shape : option nat * option nat) : res (nat * nat) :=
  do! chan <- find_dim (fst s) (fst shape);
  do! corr <- find_dim (snd s) (snd shape);
  Ok (chan, corr).

(* Lines 419-454; the four cubes are given by (chan, corr), the four channel
   vectors by their length. *)
Definition cube_shape (a : option (nat * nat)) : option nat * option nat :=
  match a with Some (f, c) => (Some f, Some c) | None => (None, None) end.
Definition vec_shape (a : option nat) : option nat * option nat := (a, None).
Definition chan_corrs (vis flag wspec sspec : option (nat * nat))
           (freq width ebw resn : option nat) : res (nat * nat) :=
  fold_left (fun s sh => do! s' <- s; find_chan_corr s' sh)
            [cube_shape vis; cube_shape flag; cube_shape wspec; cube_shape sspec;
             vec_shape freq; vec_shape width; vec_shape ebw; vec_shape resn]
            (Ok (0, 0)).

(* ------------------------------------------------------------------ *)
(* lines 706-761 merge_flags                                             *)

(* The two nested loops with breaks on lines 713-723 / 741-751: conjunction over the
   cells of row r, stopping at the first unflagged one. *)
Fixpoint all_corrs (flag : arr3 Z) (r f k : nat) (todo : nat) : bool :=
  match todo with
  | O => true
  | S t => if Z.eqb (flag r f k) 0 then false else all_corrs flag r f (S k) t
  end.
Fixpoint all_chans (flag : arr3 Z) (r ncorr f : nat) (todo : nat) : bool :=
  match todo with
  | O => true
  | S t => if all_corrs flag r f 0 ncorr then all_chans flag r ncorr (S f) t else false
  end.
Definition all_flagged (nchan ncorr : nat) (flag : arr3 Z) (r : nat) : bool :=
  all_chans flag r ncorr 0 nchan.

Definition merge_flags (nrow nchan ncorr : nat) (flag_row : option (arr Z))
           (flag : option (arr3 Z)) : res (option (arr Z)) :=
  match flag_row, flag with
  | Some fr, Some fl =>
      do! _ <- forM nrow (fun r _ =>
                 if Bool.eqb (negb (Z.eqb (fr r) 0)) (all_flagged nchan ncorr fl r)
                 then Ok tt else Raise ValueError) tt;
      Ok (Some fr)
  | Some fr, None => Ok (Some fr)
  | None, Some fl =>
      Ok (Some (for_ nrow (fun r a =>
                  upd a r (if all_flagged nchan ncorr fl r then 1 else 0)%Z) (fun _ => 0%Z)))
  | None, None => Ok None
  end.

(* ------------------------------------------------------------------ *)
(* lines 764-848 time_and_channel                                        *)

Section TimeAndChannel.
  Context (F : arith) (K : farith).

  Record tc_input : Type := {
    t_n : nat;
    t_time : arr (num F); t_interval : arr (num F);
    t_ant1 : arr Z; t_ant2 : arr Z;
    t_flag_row : option (arr Z);
    t_rows : row_cols K;
    t_cells : chan_cols K;
    (* extents of the cubes and of the channel vectors, None when absent *)
    t_vis_sh : option (nat * nat); t_flag_sh : option (nat * nat);
    t_ws_sh : option (nat * nat); t_ss_sh : option (nat * nat);
    t_freq : option (nat * arr (fnum K)); t_width : option (nat * arr (fnum K));
    t_ebw : option (nat * arr (fnum K)); t_res : option (nat * arr (fnum K));
    t_secs : num F; t_bin_size : nat
  }.

  Record tc_output : Type := {
    to_rows : row_map_output F;
    to_row : row_avg_out K;
    to_chan : chan_avg_out K;
    to_out_chans : nat;
    to_cells : arr3 (out_cell K)
  }.

  Definition dims (o : option (nat * arr (fnum K))) : option nat := option_map fst o.
  Definition vals (o : option (nat * arr (fnum K))) : option (arr (fnum K)) := option_map snd o.

  Definition time_and_channel (t : tc_input) (ant_init : arr Z) : res tc_output :=
    do! s <- chan_corrs (t_vis_sh t) (t_flag_sh t) (t_ws_sh t) (t_ss_sh t)
                        (dims (t_freq t)) (dims (t_width t)) (dims (t_ebw t)) (dims (t_res t));
    let nchan := fst s in
    let '(fchan, fcorr) := match t_flag_sh t with Some p => p | None => (0, 0) end in
    do! flag_row <- merge_flags (t_n t) fchan fcorr (t_flag_row t) (in_flag K (t_cells t));
    do! rm <- row_mapper F (t_n t) (t_time t) (t_interval t) (t_ant1 t) (t_ant2 t)
                         flag_row (t_secs t);
    let '(cmap, out_chans) := channel_mapper nchan (t_bin_size t) in
    let ra := row_average K (t_n t) (rm_out_rows F rm) (rm_map F rm) (rm_flag_row F rm)
                          (t_ant1 t) (t_ant2 t) flag_row (t_rows t) ant_init in
    let ca := chan_average K nchan out_chans cmap (vals (t_freq t)) (vals (t_width t))
                           (vals (t_ebw t)) (vals (t_res t)) in
    (* row_chan_average infers its own correlation count from the cubes only *)
    do! s2 <- chan_corrs (t_vis_sh t) (t_flag_sh t) (t_ws_sh t) (t_ss_sh t) None None None None;
    do! rc <- row_chan_average K (t_n t) nchan (snd s2) (rm_out_rows F rm) out_chans
                               (rm_map F rm) cmap flag_row (rm_flag_row F rm) (t_cells t);
    Ok {| to_rows := rm; to_row := ra; to_chan := ca; to_out_chans := out_chans;
          to_cells := rc |}.
End TimeAndChannel.
