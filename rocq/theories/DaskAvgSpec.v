(* Vocabulary for C87: averaging a chunked data set. *)
From Verif Require Import Prelude AvgModel AvgModel2 DaskAvgModel.

Section Spec.
  Context (F : arith) (K : farith).

  (* the data set restricted to the n rows from r0 on, everything else unchanged *)
  Definition only_rows (r0 n : nat) (t : tc_input F K) : tc_input F K :=
    {| t_n := n;
       t_time := fun i => t_time F K t (r0 + i); t_interval := fun i => t_interval F K t (r0 + i);
       t_ant1 := fun i => t_ant1 F K t (r0 + i); t_ant2 := fun i => t_ant2 F K t (r0 + i);
       t_flag_row := option_map (fun (a : arr Z) i => a (r0 + i)) (t_flag_row F K t);
       t_rows :=
         {| in_tc := option_map (fun (a : arr (fnum K)) i => a (r0 + i)) (in_tc K (t_rows F K t));
            in_exp := option_map (fun (a : arr (fnum K)) i => a (r0 + i)) (in_exp K (t_rows F K t));
            in_uvw := option_map (fun (a : arr2 (fnum K)) i => a (r0 + i)) (in_uvw K (t_rows F K t));
            in_weight := option_map (fun p => (fst p, fun i => snd p (r0 + i))) (in_weight K (t_rows F K t));
            in_sigma := option_map (fun p => (fst p, fun i => snd p (r0 + i))) (in_sigma K (t_rows F K t)) |};
       t_cells :=
         {| in_rweight := option_map (fun (a : arr2 (fnum K)) i => a (r0 + i)) (in_rweight K (t_cells F K t));
            in_vis := option_map (fun (a : arr3 (cnum K)) i => a (r0 + i)) (in_vis K (t_cells F K t));
            in_flag := option_map (fun (a : arr3 Z) i => a (r0 + i)) (in_flag K (t_cells F K t));
            in_wspec := option_map (fun (a : arr3 (fnum K)) i => a (r0 + i)) (in_wspec K (t_cells F K t));
            in_sspec := option_map (fun (a : arr3 (fnum K)) i => a (r0 + i)) (in_sspec K (t_cells F K t)) |};
       t_vis_sh := t_vis_sh F K t; t_flag_sh := t_flag_sh F K t;
       t_ws_sh := t_ws_sh F K t; t_ss_sh := t_ss_sh F K t;
       t_freq := t_freq F K t; t_width := t_width F K t; t_ebw := t_ebw F K t; t_res := t_res F K t;
       t_secs := t_secs F K t; t_bin_size := t_bin_size F K t |}.

  (* the chunks tile the arrays: every cube supplied has the summed channel and correlation extents, every channel
     vector the summed channel extent, weight and sigma the summed correlation extent *)
  Definition tiles (ch : avg_chunks) (t : tc_input F K) : Prop :=
    t_n F K t = list_sum (ch_rows ch) /\
    (forall s, In (Some s) [t_vis_sh F K t; t_flag_sh F K t; t_ws_sh F K t; t_ss_sh F K t] ->
       s = (list_sum (ch_chans ch), list_sum (ch_corrs ch))) /\
    (forall n a, In (Some (n, a)) [t_freq F K t; t_width F K t; t_ebw F K t; t_res F K t] ->
       n = list_sum (ch_chans ch)) /\
    (forall n a, In (Some (n, a)) [in_weight K (t_rows F K t); in_sigma K (t_rows F K t)] ->
       n = list_sum (ch_corrs ch)) /\
    (* flags have their shape recorded *)
    (in_flag K (t_cells F K t) <> None <-> t_flag_sh F K t <> None).

  (* every channel chunk but the last holds a whole number of channel bins *)
  Definition aligned (bin : nat) (chans : list nat) : Prop :=
    forall k, S k < length chans -> exists m, nth k chans 0 = m * bin.

  (* what numpy returns for the rows of chunk r *)
  Definition numpy_chunk (ch : avg_chunks) (t : tc_input F K) (ant_init : arr Z) (r : nat) : res (tc_output F K) :=
    time_and_channel F K (only_rows (chunk_start (ch_rows ch) r) (chunk_size (ch_rows ch) r) t) ant_init.

  (* some channel or row/channel/correlation array is supplied *)
  Definition has_channels (t : tc_input F K) : Prop :=
    exists b, In b [t_vis_sh F K t <> None; t_flag_sh F K t <> None; t_ws_sh F K t <> None; t_ss_sh F K t <> None;
                    t_freq F K t <> None; t_width F K t <> None; t_ebw F K t <> None; t_res F K t <> None] /\ b.
  Definition has_correlations (t : tc_input F K) : Prop :=
    exists b, In b [t_vis_sh F K t <> None; t_flag_sh F K t <> None; t_ws_sh F K t <> None; t_ss_sh F K t <> None;
                    in_rweight K (t_cells F K t) <> None] /\ b.
End Spec.

(* entry i of an optional output is entry j of another *)
Definition same_entry {A} (o : option (arr A)) (i : nat) (o' : option (arr A)) (j : nat) : Prop :=
  match o, o' with Some a, Some b => a i = b j | None, None => True | _, _ => False end.
