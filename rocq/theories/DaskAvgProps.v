(* Property C87: averaging a data set cut into dask chunks.  Vocabulary: DaskAvgSpec.v.  Arithmetic is abstract. *)
From Coq Require Import QArith QArith.Qcanon.
From Verif Require Import Prelude PreludeFacts AvgModel AvgModel2 AvgSpec AvgSpec2 QcArith QcFacts DaskAvgModel DaskAvgSpec DaskAvgProofs.
Close Scope Qc_scope. Close Scope Q_scope.
Open Scope nat_scope.

(* Where every channel chunk but the last holds a whole number of bins, the blocks computed for a row chunk are the pieces
   of what numpy returns for those rows on their own *)
Theorem C87_chunk F K ch t ai d r out :
  tiles F K ch t -> aligned (t_bin_size F K t) (ch_chans ch) -> r < length (ch_rows ch) ->
  dask_time_and_channel F K ch t ai = Ok d -> numpy_chunk F K ch t ai r = Ok out ->
  da_row_meta F K d r = Ok (to_rows F K out) /\
  (length (ch_corrs ch) = 1 -> da_row F K d r = Ok (to_row F K out)) /\
  (forall k f, k < length (ch_chans ch) -> f < da_out_chans F K d k ->
     let first := chunk_start (ch_chans ch) k / t_bin_size F K t in
     let at_ g := same_entry (g (da_chan F K d k)) f (g (to_chan F K out)) (first + f) in
     at_ (ca_freq K) /\ at_ (ca_width K) /\ at_ (ca_ebw K) /\ at_ (ca_res K)) /\
  ((exists s, In (Some s) [t_vis_sh F K t; t_flag_sh F K t; t_ws_sh F K t; t_ss_sh F K t]) ->
   forall k c, k < length (ch_chans ch) -> c < length (ch_corrs ch) ->
     let first := chunk_start (ch_chans ch) k / t_bin_size F K t in
     exists blk, da_cells F K d r k c = Ok blk /\
       forall o f co, o < rm_out_rows F (to_rows F K out) -> f < da_out_chans F K d k -> co < chunk_size (ch_corrs ch) c ->
         blk o f co = to_cells F K out o (first + f) (chunk_start (ch_corrs ch) c + co)).
Proof. intros T A Hr Ed E. exact (chunk_ok F K ch t ai d r T A Hr Ed out E). Qed.
Print Assumptions C87_chunk.

(* and when numpy raises for those rows, so does a block *)
Theorem C87_chunk_raises F K ch t ai d r e :
  tiles F K ch t -> aligned (t_bin_size F K t) (ch_chans ch) -> r < length (ch_rows ch) ->
  dask_time_and_channel F K ch t ai = Ok d -> numpy_chunk F K ch t ai r = Raise e ->
  da_row_meta F K d r = Raise e \/
  e = ZeroFilledBin /\ exists k c, k < length (ch_chans ch) /\ c < length (ch_corrs ch) /\ da_cells F K d r k c = Raise ZeroFilledBin.
Proof. intros T A Hr Ed E. exact (chunk_raises F K ch t ai d r T A Hr Ed e E). Qed.
Print Assumptions C87_chunk_raises.

(* with all rows in one chunk this is numpy on the whole data set *)
Theorem C87_one_row_chunk F K ch t ai : ch_rows ch = [t_n F K t] -> numpy_chunk F K ch t ai 0 = time_and_channel F K t ai.
Proof. exact (one_row_chunk F K ch t ai). Qed.
Print Assumptions C87_one_row_chunk.

(* sizes: the number of output rows is not known beforehand; the cubes have the channel chunks they declare; chan_freq and its companions do so exactly when there is nothing
   to average in the chunk; weight and sigma exactly when only the first correlation chunk holds anything.  The number of
   output channels is the unchunked one for aligned chunks, and never less *)
Theorem C87_sizes F K ch t ai d : dask_time_and_channel F K ch t ai = Ok d ->
  da_declared_rows F K d = repeat None (length (ch_rows ch)) /\
  length (da_declared_cube_chans F K d) = length (ch_chans ch) /\
  length (da_declared_vec_chans F K d) = length (ch_chans ch) /\
  (forall k, k < length (ch_chans ch) -> nth k (da_declared_cube_chans F K d) 0 = da_out_chans F K d k) /\
  (forall k, k < length (ch_chans ch) ->
     nth k (da_declared_vec_chans F K d) 0 = da_out_chans F K d k <-> t_bin_size F K t = 1 \/ nth k (ch_chans ch) 0 <= 1) /\
  (da_declared_row_corrs F K d = [da_row_corrs F K d] <-> list_sum (tl (ch_corrs ch)) = 0) /\
  (aligned (t_bin_size F K t) (ch_chans ch) ->
     list_sum (map (da_out_chans F K d) (seq 0 (length (ch_chans ch)))) =
       (list_sum (ch_chans ch) + t_bin_size F K t - 1) / t_bin_size F K t) /\
  (list_sum (ch_chans ch) + t_bin_size F K t - 1) / t_bin_size F K t <=
    list_sum (map (da_out_chans F K d) (seq 0 (length (ch_chans ch)))).
Proof. intros E. destruct (declared_dims F K ch t ai d E) as (A & B & C). exact (conj A (conj B (conj C (declared F K ch t ai d E)))). Qed.
Print Assumptions C87_sizes.

(* when the graph can be built: row data alone cannot be averaged (numpy can), nor channel vectors without a cube or a weight *)
Theorem C87_errors F K ch t ai :
  (~ has_channels F K t -> dask_time_and_channel F K ch t ai = Raise TypeError) /\
  (has_channels F K t -> ~ has_correlations F K t -> dask_time_and_channel F K ch t ai = Raise ValueError) /\
  (has_channels F K t -> has_correlations F K t -> t_bin_size F K t = 0 -> dask_time_and_channel F K ch t ai = Raise ZeroDivision) /\
  (has_channels F K t -> has_correlations F K t -> 0 < t_bin_size F K t -> exists d, dask_time_and_channel F K ch t ai = Ok d).
Proof. exact (dask_errors F K ch t ai). Qed.
Print Assumptions C87_errors.

(* ---------- examples ---------- *)
Definition dq (z : Z) : Qc := Q2Qc (inject_Z z).
Definition dF := QcF (dq 1000).
Definition dK := QcK (fun x => x).
(* four samples of one baseline, five channels, two correlations *)
Definition d_t (bin : nat) (cubes : bool) : tc_input dF dK :=
  {| t_n := 4; t_time := of_list (dq 0) (map dq [0; 1; 2; 3]%Z) : arr (num dF); t_interval := fun _ => dq 1;
     t_ant1 := fun _ => 0%Z; t_ant2 := fun _ => 1%Z; t_flag_row := None;
     t_rows := {| in_tc := None; in_exp := None; in_uvw := None; in_weight := None; in_sigma := None |};
     t_cells := {| in_rweight := None;
                   in_vis := if cubes then Some (fun i ch co => (dq (Z.of_nat (100 * i + 10 * ch + co)), dq 0) : cnum dK) else None;
                   in_flag := None; in_wspec := None; in_sspec := None |};
     t_vis_sh := if cubes then Some (5, 2) else None; t_flag_sh := None; t_ws_sh := None; t_ss_sh := None;
     t_freq := if cubes then Some (5, fun ch => dq (Z.of_nat (7 * ch)) : fnum dK) else None; t_width := None; t_ebw := None; t_res := None;
     t_secs := dq 2; t_bin_size := bin |}.
Definition d_ch rows chans corrs : avg_chunks := {| ch_rows := rows; ch_chans := chans; ch_corrs := corrs |}.

(* the hypotheses of C87_chunk hold here, and numpy succeeds on both row chunks *)
Example C87_case : tiles dF dK (d_ch [2; 2] [2; 2; 1] [1; 1]) (d_t 2 true) /\ aligned 2 [2; 2; 1] /\
  has_channels dF dK (d_t 2 true) /\ has_correlations dF dK (d_t 2 true) /\
  (forall r, r < 2 -> exists out, numpy_chunk dF dK (d_ch [2; 2] [2; 2; 1] [1; 1]) (d_t 2 true) (fun _ => 0%Z) r = Ok out /\
     rm_out_rows dF (to_rows dF dK out) = 1 /\ to_out_chans dF dK out = 3).
Proof.
  split; [|split; [|split; [|split]]].
  - unfold tiles. cbn. repeat split.
    + intros s [E|[E|[E|[E|[]]]]]; congruence.
    + intros n a [E|[E|[E|[E|[]]]]]; congruence.
    + intros n a [E|[E|[]]]; congruence.
    + intros H. congruence.
    + intros H. congruence.
  - intros k Hk. cbn in Hk. exists 1. destruct k as [|[|k]]; [reflexivity|reflexivity|lia].
  - eexists. split; [left; reflexivity|]. discriminate.
  - eexists. split; [left; reflexivity|]. discriminate.
  - intros r Hr.
    assert (X : match numpy_chunk dF dK (d_ch [2; 2] [2; 2; 1] [1; 1]) (d_t 2 true) (fun _ => 0%Z) r with
                | Ok out => Nat.eqb (rm_out_rows dF (to_rows dF dK out)) 1 && Nat.eqb (to_out_chans dF dK out) 3 | Raise _ => false end = true).
    { destruct r as [|[|r]]; [vm_compute; reflexivity|vm_compute; reflexivity|lia]. }
    destruct (numpy_chunk _ _ _ _ _ r) as [out|]; [|discriminate]. apply andb_true_iff in X. destruct X as [X1 X2].
    exists out. split; [reflexivity|]. split; now apply Nat.eqb_eq.
Qed.

(* row chunks are averaged on their own: the result depends on the chunks.  Two samples in one bin become two output rows *)
Theorem C87_row_chunks_refuted : exists F K t ai d out,
  tiles F K (d_ch [1; 1; 2] [5] [2]) t /\ dask_time_and_channel F K (d_ch [1; 1; 2] [5] [2]) t ai = Ok d /\
  time_and_channel F K t ai = Ok out /\ rm_map F (to_rows F K out) 0 = rm_map F (to_rows F K out) 1 /\
  exists a b, da_row_meta F K d 0 = Ok a /\ da_row_meta F K d 1 = Ok b /\ rm_out_rows F a = 1 /\ rm_out_rows F b = 1.
Proof.
  exists dF, dK, (d_t 2 true), (fun _ => 0%Z).
  destruct (dask_time_and_channel dF dK (d_ch [1; 1; 2] [5] [2]) (d_t 2 true) (fun _ => 0%Z)) as [d|] eqn:Ed; [|discriminate].
  destruct (time_and_channel dF dK (d_t 2 true) (fun _ => 0%Z)) as [out|] eqn:Eo; [|vm_compute in Eo; discriminate].
  exists d, out. split.
  { unfold tiles. cbn. repeat split.
    + intros s [E|[E|[E|[E|[]]]]]; congruence.
    + intros n a [E|[E|[E|[E|[]]]]]; congruence.
    + intros n a [E|[E|[]]]; congruence.
    + intros H. congruence.
    + intros H. congruence. }
  split; [reflexivity|]. split; [reflexivity|]. split.
  - assert (X : match time_and_channel dF dK (d_t 2 true) (fun _ => 0%Z) with
                | Ok o => Nat.eqb (rm_map dF (to_rows dF dK o) 0) (rm_map dF (to_rows dF dK o) 1) | _ => false end = true) by (vm_compute; reflexivity).
    rewrite Eo in X. now apply Nat.eqb_eq.
  - pose proof Ed as Ed'. unfold dask_time_and_channel in Ed'. cbn in Ed'. injection Ed' as <-. cbn [da_row_meta].
    assert (X : forall r, r < 2 -> match row_meta_block dF dK (d_ch [1; 1; 2] [5] [2]) (d_t 2 true) r with Ok a => Nat.eqb (rm_out_rows dF a) 1 | _ => false end = true).
    { intros r Hr. destruct r as [|[|r]]; [vm_compute; reflexivity|vm_compute; reflexivity|lia]. }
    pose proof (X 0 ltac:(lia)) as X0. pose proof (X 1 ltac:(lia)) as X1.
    destruct (row_meta_block _ _ _ _ 0) as [a|]; [|discriminate]. destruct (row_meta_block _ _ _ _ 1) as [b|]; [|discriminate].
    exists a, b. split; [reflexivity|]. split; [reflexivity|]. split; now apply Nat.eqb_eq.
Qed.
Print Assumptions C87_row_chunks_refuted.

(* without alignment the channel bins start again at every chunk: chunks of 1, 3 and 1 channels
   in bins of 2 give 1 + 2 + 1 bins where the 5 channels whole give 3 *)
Theorem C87_channel_chunks_refuted : exists F K ch t ai d, dask_time_and_channel F K ch t ai = Ok d /\
  (list_sum (ch_chans ch) + t_bin_size F K t - 1) / t_bin_size F K t < list_sum (map (da_out_chans F K d) (seq 0 (length (ch_chans ch)))).
Proof.
  exists dF, dK, (d_ch [4] [1; 3; 1] [2]), (d_t 2 true), (fun _ => 0%Z). eexists. split; [reflexivity|]. vm_compute. lia.
Qed.
Print Assumptions C87_channel_chunks_refuted.

(* "Output arrays will be None if the inputs were None" fails without channel data: numpy returns, dask raises *)
Theorem C87_rows_only_refuted : exists F K ch t ai out, time_and_channel F K t ai = Ok out /\ dask_time_and_channel F K ch t ai = Raise TypeError.
Proof.
  exists dF, dK, (d_ch [4] [5] [2]), (d_t 2 false), (fun _ => 0%Z).
  destruct (time_and_channel dF dK (d_t 2 false) (fun _ => 0%Z)) as [out|] eqn:Eo; [|vm_compute in Eo; discriminate].
  exists out. split; reflexivity.
Qed.
Print Assumptions C87_rows_only_refuted.
