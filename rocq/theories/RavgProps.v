(* C114: averaging in floating point. *)
From Coq Require Import Reals Lra Lia Sorted.
From Flocq Require Import Core.
From Verif Require Import Prelude PreludeFacts AvgModel AvgModel2 AvgSpec AvgSpec2 AvgProofs4 RoundModel RoundSpec RavgModel RavgSpec RavgProofs RavgProofs2.
From Verif Require RoundProofs4.
Open Scope R_scope.

(* Averaged times and summed intervals are those of C06 up to the rounding of as many operations. *)
Theorem C114_row_times fl u big n time interval ant1 ant2 flag_row secs out T : roundoff fl u ->
  int32_col n ant1 -> int32_col n ant2 -> (forall i, (i < n)%nat -> Rabs (time i) <= T) -> (1 + u) ^ S n * T < big ->
  row_mapper (rounded_rows fl big) n time interval ant1 ant2 flag_row secs = Ok out ->
  forall k, (k < rm_out_rows _ out)%nat -> exists l, rows_by_time (rounded_rows fl big) n time (fun i => rm_map _ out i = k) l /\ l <> [] /\
    Rabs (rm_time _ out k - mean time l) <= gamma u (S (length l)) * mean (fun i => Rabs (time i)) l /\
    Rabs (rm_interval _ out k - total interval l) <= gamma u (length l) * total (fun i => Rabs (interval i)) l.
Proof. intros Hu. exact (row_times fl u Hu big n time interval ant1 ant2 flag_row secs out T). Qed.

(* A bin is at most as much longer than requested as two roundings of the largest time. *)
Theorem C114_width fl u big n time interval ant1 ant2 flag_row secs w out T : roundoff fl u -> u < 1 -> 0 <= secs -> 0 <= w ->
  int32_col n ant1 -> int32_col n ant2 -> (forall i, (i < n)%nat -> Rabs (time i) <= T) -> (1 + u) ^ S n * T < big ->
  (forall i, (i < n)%nat -> interval i = w) ->
  row_mapper (rounded_rows fl big) n time interval ant1 ant2 flag_row secs = Ok out ->
  forall i j, (i < n)%nat -> (j < n)%nat -> rm_map _ out i = rm_map _ out j -> time i < time j ->
    (time j + w / 2) - (time i - w / 2) <= secs / (1 - u) + gamma u 2 * (2 * T + w).
Proof. intros Hu. exact (row_width fl u Hu big n time interval ant1 ant2 flag_row secs w out T). Qed.
(* C08 itself is false in double precision. *)
Theorem C114_width_refuted : ~ (forall big n time interval ant1 ant2 flag_row secs w out, 0 <= secs -> 0 <= w ->
  (forall i, (i < n)%nat -> generic_format radix2 (FLX_exp 53) (time i)) -> generic_format radix2 (FLX_exp 53) secs -> generic_format radix2 (FLX_exp 53) w ->
  int32_col n ant1 -> int32_col n ant2 -> sentinel_above (rounded_rows (nearest 53) big) n time -> (forall i, (i < n)%nat -> interval i = w) ->
  row_mapper (rounded_rows (nearest 53) big) n time interval ant1 ant2 flag_row secs = Ok out ->
  forall i j, (i < n)%nat -> (j < n)%nat -> rm_map _ out i = rm_map _ out j -> time i < time j ->
    (time j + w / 2) - (time i - w / 2) <= secs).
Proof. exact width_exceeded. Qed.

(* Real and imaginary part of an averaged visibility, for weights that are not negative; and the summed weight spectrum. *)
Theorem C114_visibilities fl u n nchan ncorr orows ochans rmap cmap flag_row oflag x out : roundoff fl u ->
  row_chan_average (rounded_cols fl) n nchan ncorr orows ochans rmap cmap flag_row oflag x = Ok out ->
  forall r f c, (r < orows)%nat -> (f < ochans)%nat -> (c < ncorr)%nat ->
  exists l, averaged n nchan rmap cmap flag_row oflag x r f c l /\
    let k := length l in
    let w p := weight_or_1 _ (sample_weight _ x (fst p) (snd p) c) in
    (forall v part, in_vis _ x = Some v -> part = fst \/ part = snd ->
       (forall p, In p l -> 0 <= w p) -> 0 < total w l -> gamma u k < 1 ->
       let val p := part (v (fst p) (snd p) c) in
       Rabs (part (oc_vis _ (out r f c)) - total (fun p => w p * val p) l / total w l) <=
       (gamma u (k + 2) + gamma u k) / (1 - gamma u k) * (total (fun p => w p * Rabs (val p)) l / total w l)) /\
    (forall ws, in_wspec _ x = Some ws ->
       Rabs (oc_wspec _ (out r f c) - total (fun p => ws (fst p) (snd p) c) l) <= gamma u k * total (fun p => Rabs (ws (fst p) (snd p) c)) l).
Proof. intros Hu. exact (cell_average fl u Hu n nchan ncorr orows ochans rmap cmap flag_row oflag x out). Qed.

(* A cell made of a single sample is that sample exactly, without weights. *)
Theorem C114_single_sample fl n nchan ncorr orows ochans rmap cmap flag_row oflag x out v r f c i ch :
  row_chan_average (rounded_cols fl) n nchan ncorr orows ochans rmap cmap flag_row oflag x = Ok out ->
  (r < orows)%nat -> (f < ochans)%nat -> (c < ncorr)%nat ->
  (forall i' ch', (i' < n)%nat -> (ch' < nchan)%nat -> rmap i' = r -> cmap ch' = f -> (i', ch') = (i, ch)) ->
  in_vis _ x = Some v -> in_wspec _ x = None -> in_rweight _ x = None ->
  fl 1 = 1 -> fl (fst (v i ch c)) = fst (v i ch c) -> fl (snd (v i ch c)) = snd (v i ch c) ->
  oc_vis _ (out r f c) = v i ch c.
Proof. exact (one_unweighted fl n nchan ncorr orows ochans rmap cmap flag_row oflag x out v r f c i ch). Qed.
(* With a weight it is not, in double precision: the sample is multiplied and divided by it. *)
Theorem C114_single_weighted_refuted : ~ (forall v w out,
  generic_format radix2 (FLX_exp 53) (fst v) -> generic_format radix2 (FLX_exp 53) (snd v) -> generic_format radix2 (FLX_exp 53) w -> 0 < w ->
  row_chan_average (rounded_cols (nearest 53)) 1 1 1 1 1 (fun _ => 0%nat) (fun _ => 0%nat) None None (one_sample (nearest 53) v (Some w)) = Ok out ->
  oc_vis _ (out 0%nat 0%nat 0%nat) = v).
Proof. exact one_weighted. Qed.

(* Averaged frequencies, coordinates and time centroids, summed exposures. *)
Theorem C114_frequencies fl u nchan ochans cmap freq b : roundoff fl u -> (b < ochans)%nat -> exists l, ascending nchan (fun ch => cmap ch = b) l /\
  forall o, l <> [] -> ca_freq _ (chan_average (rounded_cols fl) nchan ochans cmap (Some freq) None None None) = Some o ->
    Rabs (o b - mean freq l) <= gamma u (S (length l)) * mean (fun ch => Rabs (freq ch)) l.
Proof. intros Hu. exact (frequencies fl u Hu nchan ochans cmap freq b). Qed.
Theorem C114_row_columns fl u n out_rows rmap oflag ant1 ant2 flag_row x ant_init : roundoff fl u ->
  (forall i j, (i < n)%nat -> (j < n)%nat -> rmap i = rmap j -> same_baseline ant1 ant2 i j) ->
  let out := row_average (rounded_cols fl) n out_rows rmap oflag ant1 ant2 flag_row x ant_init in
  forall k, (k < out_rows)%nat -> exists l, ascending n (fun i => rmap i = k /\ contributes flag_row oflag i k) l /\
    (l <> [] ->
     (forall uvw c, in_uvw _ x = Some uvw -> (c < 3)%nat ->
        Rabs (rc_uvw _ (ra_cells _ out k) c - mean (fun i => uvw i c) l) <= gamma u (S (length l)) * mean (fun i => Rabs (uvw i c)) l) /\
     (forall t, in_tc _ x = Some t -> Rabs (rc_tc _ (ra_cells _ out k) - mean t l) <= gamma u (S (length l)) * mean (fun i => Rabs (t i)) l)) /\
    (forall e, in_exp _ x = Some e -> Rabs (rc_exp _ (ra_cells _ out k) - total e l) <= gamma u (length l) * total (fun i => Rabs (e i)) l).
Proof. intros Hu. exact (row_columns fl u Hu n out_rows rmap oflag ant1 ant2 flag_row x ant_init). Qed.

(* Two rows in double precision: they are averaged, so that the theorems about rows apply. *)
Example two_rows : exists out, row_mapper (rounded_rows (nearest 53) 1000) 2 INR (fun _ => 1) (fun _ => 0%Z) (fun _ => 1%Z) None 10 = Ok out /\
  exists l, rows_by_time (rounded_rows (nearest 53) 1000) 2 INR (fun i => rm_map _ out i = rm_map _ out 0%nat) l.
Proof.
  assert (HT : forall i, (i < 2)%nat -> Rabs (INR i) <= 1).
  { intros [|[|i]] Hi; try lia; cbn; rewrite ?Rabs_R0, ?Rabs_R1; lra. }
  assert (HB : (1 + / 2 ^ 53) ^ 3 * 1 < 1000).
  { assert (/ 2 ^ 53 <= 1) by lra. assert (0 < / 2 ^ 53) by lra. set (e := / 2 ^ 53) in *. clearbody e. cbn [pow]. nra. }
  assert (I1 : forall z, (0 <= z <= 1)%Z -> int32_col 2 (fun _ => z)) by (intros z Hz i _; unfold is_int32; lia).
  destruct (proj2 (row_mapper_ok_iff _ (rounded_rows_ok (nearest 53) 1000) 2 INR (fun _ => 1) (fun _ => 0%Z) (fun _ => 1%Z) None 10
    (I1 0%Z ltac:(lia)) (I1 1%Z ltac:(lia)) (below_sentinel _ _ RoundProofs4.nearest_53 1000 2 INR 1 HT HB))) as [out E].
  { intros i j Hi Hj Ht _. exact (INR_eq i j Ht). }
  exists out. split; [exact E|].
  assert (R : (rm_map _ out 0%nat < rm_out_rows _ out)%nat).
  { pose proof (row_mapper_ok_map _ (rounded_rows_ok (nearest 53) 1000) 2 INR (fun _ => 1) (fun _ => 0%Z) (fun _ => 1%Z) None 10 out
      (I1 0%Z ltac:(lia)) (I1 1%Z ltac:(lia)) (below_sentinel _ _ RoundProofs4.nearest_53 1000 2 INR 1 HT HB) E) as M. apply M. lia. }
  destruct (C114_row_times _ _ _ _ _ _ _ _ _ _ _ _ RoundProofs4.nearest_53 (I1 0%Z ltac:(lia)) (I1 1%Z ltac:(lia)) HT HB E _ R) as (l & A & _). eauto.
Qed.
(* Two unweighted samples in one cell: their mean, up to less than eight roundings. *)
Example two_samples : exists out, row_chan_average (rounded_cols (nearest 53)) 2 1 1 1 1 (fun _ => 0%nat) (fun _ => 0%nat) None None
  (Build_chan_cols (rounded_cols (nearest 53)) None (Some (fun i _ _ => (INR i, 0))) None None None) = Ok out /\
  Rabs (fst (oc_vis _ (out 0%nat 0%nat 0%nat)) - 1 / 2) <= 8 * / 2 ^ 53.
Proof.
  set (x := Build_chan_cols (rounded_cols (nearest 53)) None (Some (fun i _ _ => (INR i, 0))) None None None).
  assert (X : exists out, row_chan_average (rounded_cols (nearest 53)) 2 1 1 1 1 (fun _ => 0%nat) (fun _ => 0%nat) None None x = Ok out)
    by (eexists; reflexivity).
  destruct X as [out E]. exists out. split; [exact E|].
  destruct (C114_visibilities _ _ _ _ _ _ _ _ _ _ _ _ _ RoundProofs4.nearest_53 E 0%nat 0%nat 0%nat) as (l & A & H & _); try lia.
  assert (F : forall i ch c, ~ sample_flagged _ x i ch c) by (intros i ch c; unfold sample_flagged; cbn; tauto).
  assert (L : l = [(0, 0); (1, 0)]%nat).
  { destruct A as (N & [A|(A & B)]).
    - apply pairs_unique; [apply A|repeat constructor; unfold pair_lt; cbn; lia|]. intros [i ch]. rewrite (proj2 A i ch). cbn [In]. split.
      + intros (Hi & Hc & _). destruct i as [|[|i]]; [left|right; left|lia]; f_equal; lia.
      + intros [Q|[Q|[]]]; injection Q as <- <-; (split; [lia|split; [lia|split; [|apply F]]]); cbn; auto.
    - exfalso. destruct l as [|[i ch] l]; [congruence|]. apply (F i ch 0%nat). apply (proj2 B i ch). left. reflexivity. }
  subst l. specialize (H _ fst eq_refl (or_introl eq_refl)). cbn [length total fold_right fst snd] in H.
  change (sample_weight (rounded_cols (nearest 53)) x 0 0 0) with (@None R) in H.
  change (sample_weight (rounded_cols (nearest 53)) x 1 0 0) with (@None R) in H. cbn [weight_or_1 rounded_cols f1 INR] in H.
  assert (U : 0 < / 2 ^ 53 <= / 1000) by lra.
  set (u := / 2 ^ 53) in *. clearbody u. unfold gamma in H. cbn [pow plus] in H. rewrite Rabs_R0, Rabs_R1 in H.
  assert (V : 0 <= u * u <= u * / 1000) by (split; [apply Rmult_le_pos; lra|apply Rmult_le_compat_l; lra]).
  assert (V3 : 0 <= u * u * u <= u * u * / 1000) by (split; [repeat apply Rmult_le_pos; lra|apply Rmult_le_compat_l; lra]).
  assert (V4 : 0 <= u * u * u * u <= u * u * u * / 1000) by (split; [repeat apply Rmult_le_pos; lra|apply Rmult_le_compat_l; lra]).
  assert (G : (1 + u) * ((1 + u) * 1) - 1 < 1) by lra.
  specialize (H ltac:(intros; change (0 <= 1); lra) ltac:(lra) G).
  replace ((1 * 0 + (1 * 1 + 0)) / (1 + (1 + 0))) with (1 / 2) in H by field.
  eapply Rle_trans; [exact H|]. set (D := 1 - ((1 + u) * ((1 + u) * 1) - 1)).
  assert (1 / 2 <= D) by (unfold D; lra).
  apply Rmult_le_reg_r with D; [lra|]. unfold Rdiv. field_simplify; [|lra]. unfold D. lra.
Qed.

Print Assumptions C114_row_times.
Print Assumptions C114_width.
Print Assumptions C114_width_refuted.
Print Assumptions C114_visibilities.
Print Assumptions C114_single_sample.
Print Assumptions C114_single_weighted_refuted.
Print Assumptions C114_frequencies.
Print Assumptions C114_row_columns.
