(* Averages in double precision: what rounding breaks. *)
From Coq Require Import Reals Sorted Lra Lia Psatz.
From Flocq Require Import Core.
From Verif Require Import Prelude PreludeFacts AvgModel AvgModel2 AvgSpec AvgSpec2 AvgProofs AvgProofs2 AvgProofs3 AvgProofs4 AvgProofs5 AvgProofs6 AvgProofs7
  RoundModel RoundSpec RavgModel RavgSpec RavgProofs.
From Verif Require RoundProofs4.
Open Scope R_scope.

Notation dbl := (nearest 53).
Notation fmt := (generic_format radix2 (FLX_exp 53)).
Lemma succ_norm m e : (2 ^ 52 <= m < 2 ^ 53)%Z -> succ radix2 (FLX_exp 53) (F2R (Float radix2 m e)) = F2R (Float radix2 (m + 1) e).
Proof.
  intros [L U].
  assert (P : 0 < F2R (Float radix2 m e)) by (apply F2R_gt_0; cbn; lia).
  assert (M : mag radix2 (F2R (Float radix2 m e)) = (53 + e)%Z :> Z).
  { apply mag_unique. rewrite Rabs_pos_eq by lra. unfold F2R. cbn [Fnum Fexp]. split.
    - replace (53 + e - 1)%Z with (52 + e)%Z by lia. rewrite bpow_plus. apply Rmult_le_compat_r; [apply bpow_ge_0|].
      change (bpow radix2 52) with (IZR (2 ^ 52)). now apply IZR_le.
    - rewrite bpow_plus. apply Rmult_lt_compat_r; [apply bpow_gt_0|]. change (bpow radix2 53) with (IZR (2 ^ 53)). now apply IZR_lt. }
  rewrite succ_eq_pos by lra. rewrite ulp_neq_0 by lra. unfold cexp, FLX_exp. rewrite M. replace (53 + e - 53)%Z with e by lia.
  unfold F2R. cbn [Fnum Fexp]. rewrite plus_IZR. ring.
Qed.

(* 1.75 + 7 * 2^-52, its predecessor, and the number next to five times it *)
Definition sample : R := F2R (Float radix2 (7 * 2 ^ 50 + 7) (-52)).
Definition before : R := F2R (Float radix2 (7 * 2 ^ 50 + 6) (-52)).
Definition five : R := F2R (Float radix2 (35 * 2 ^ 47 + 4) (-49)).
Lemma fmt_sample : fmt sample. Proof. apply RoundProofs4.fmt_F2R. reflexivity. Qed.
Lemma sample_val : sample = 7 / 4 + 7 / 2 ^ 52.
Proof. unfold sample, F2R. cbn [Fnum Fexp]. change (7 * 2 ^ 50 + 7)%Z with 7881299347898375%Z. change (-52)%Z with (- Z.of_nat 52)%Z. rewrite RoundProofs4.bpow_2. lra. Qed.
Lemma before_val : before = 7 / 4 + 6 / 2 ^ 52.
Proof. unfold before, F2R. cbn [Fnum Fexp]. change (7 * 2 ^ 50 + 6)%Z with 7881299347898374%Z. change (-52)%Z with (- Z.of_nat 52)%Z. rewrite RoundProofs4.bpow_2. lra. Qed.
Lemma five_val : five = 35 / 4 + 32 / 2 ^ 52.
Proof. unfold five, F2R. cbn [Fnum Fexp]. change (35 * 2 ^ 47 + 4)%Z with 4925812092436484%Z. change (-49)%Z with (- Z.of_nat 49)%Z. rewrite RoundProofs4.bpow_2. lra. Qed.
Lemma five_succ : succ radix2 (FLX_exp 53) five = 35 / 4 + 40 / 2 ^ 52.
Proof. unfold five. rewrite succ_norm by lia. unfold F2R. cbn [Fnum Fexp]. change (35 * 2 ^ 47 + 4 + 1)%Z with 4925812092436485%Z. change (-49)%Z with (- Z.of_nat 49)%Z. rewrite RoundProofs4.bpow_2. lra. Qed.
Lemma before_succ : succ radix2 (FLX_exp 53) before = 7 / 4 + 7 / 2 ^ 52.
Proof. unfold before. rewrite succ_norm by lia. unfold F2R. cbn [Fnum Fexp]. change (7 * 2 ^ 50 + 6 + 1)%Z with 7881299347898375%Z. change (-52)%Z with (- Z.of_nat 52)%Z. rewrite RoundProofs4.bpow_2. lra. Qed.
Lemma dbl_mono x y : x <= y -> dbl x <= dbl y.
Proof. apply round_le; typeclasses eauto. Qed.
Lemma five_le : dbl (sample * 5) <= five.
Proof.
  apply round_N_le_midp; [typeclasses eauto|apply RoundProofs4.fmt_F2R; reflexivity|]. rewrite five_succ, five_val, sample_val. lra.
Qed.
Lemma fifth_less : dbl (dbl (sample * 5) / 5) < sample.
Proof.
  apply Rle_lt_trans with before; [|rewrite before_val, sample_val; lra].
  apply Rle_trans with (dbl (five / 5)); [apply dbl_mono; pose proof five_le; lra|].
  apply round_N_le_midp; [typeclasses eauto|apply RoundProofs4.fmt_F2R; reflexivity|]. rewrite before_succ, before_val, five_val. lra.
Qed.
Lemma dbl_exact x : fmt x -> dbl x = x.
Proof. exact (RoundProofs4.fl_exact x). Qed.
Lemma fmt_5 : fmt 5.
Proof. replace 5 with (F2R (Float radix2 5 0)) by (unfold F2R; cbn; ring). apply RoundProofs4.fmt_F2R. reflexivity. Qed.

Lemma alone (P : nat -> nat -> Prop) n nchan l i ch : ascending2 n nchan P l -> l <> [] ->
  (forall a b, (a < n)%nat -> (b < nchan)%nat -> P a b -> (a, b) = (i, ch)) -> l = [(i, ch)].
Proof.
  intros [S A] Nl H. assert (X : forall p, In p l -> p = (i, ch)).
  { intros [a b] Hp. apply A in Hp as (Ha & Hb & Hp). now apply H. }
  destruct l as [|p [|q l]]; [congruence| |].
  - now rewrite (X p (or_introl eq_refl)).
  - exfalso. rewrite (X p (or_introl eq_refl)), (X q (or_intror (or_introl eq_refl))) in S. inversion S as [|? ? _ H1]; subst.
    apply Forall_inv in H1. unfold pair_lt in H1. cbn in H1. lia.
Qed.
Theorem one_unweighted fl n nchan ncorr orows ochans rmap cmap flag_row oflag x out v r f c i ch :
  row_chan_average (rounded_cols fl) n nchan ncorr orows ochans rmap cmap flag_row oflag x = Ok out ->
  (r < orows)%nat -> (f < ochans)%nat -> (c < ncorr)%nat ->
  (forall i' ch', (i' < n)%nat -> (ch' < nchan)%nat -> rmap i' = r -> cmap ch' = f -> (i', ch') = (i, ch)) ->
  in_vis _ x = Some v -> in_wspec _ x = None -> in_rweight _ x = None ->
  fl 1 = 1 -> fl (fst (v i ch c)) = fst (v i ch c) -> fl (snd (v i ch c)) = snd (v i ch c) ->
  oc_vis _ (out r f c) = v i ch c.
Proof.
  intros E Hr Hf Hc H Ev E1 E2 F1 F2 F3.
  destruct (row_chan_average_spec _ n nchan ncorr orows ochans rmap cmap flag_row oflag x out E r f c Hr Hf Hc) as (lu & lf & l & Au & Af & Nl & Ch & Hv & _).
  assert (El : l = [(i, ch)]).
  { destruct Ch as [(_ & -> & _)|(_ & -> & _)]; eapply alone; try eassumption; intros a b Ha Hb (B1 & B2 & _); auto. }
  specialize (Hv v Ev). cbv zeta in Hv. unfold sample_weight in Hv. rewrite E1, E2, El in Hv. unfold lsum in Hv.
  cbn [fold_left fst snd weight_or_1 weighted fadd f0 f1 cadd c0 cdiv rounded_cols fnonzero] in Hv.
  rewrite !Rplus_0_l, F1, F2, F3 in Hv. replace (rne 1 0) with true in Hv by (symmetry; apply rne_spec; lra).
  unfold Rdiv in Hv. rewrite Rinv_1, !Rmult_1_r, F2, F3 in Hv. rewrite Hv. now destruct (v i ch c).
Qed.

Theorem one_weighted : ~ (forall v w out, fmt (fst v) -> fmt (snd v) -> fmt w -> 0 < w ->
  row_chan_average (rounded_cols dbl) 1 1 1 1 1 (fun _ => 0%nat) (fun _ => 0%nat) None None (one_sample dbl v (Some w)) = Ok out ->
  oc_vis _ (out 0%nat 0%nat 0%nat) = v).
Proof.
  intros A.
  destruct (row_chan_average (rounded_cols dbl) 1 1 1 1 1 (fun _ => 0%nat) (fun _ => 0%nat) None None (one_sample dbl (sample, 0) (Some 5))) as [out|] eqn:E.
  - pose proof (A (sample, 0) 5 out fmt_sample (generic_format_0 _ _) fmt_5 ltac:(lra) E) as H.
    cbn in E. unfold vis_norm in E. cbn in E. rewrite !Rplus_0_l, (dbl_exact 5 fmt_5) in E.
    injection E as <-. cbn in H. unfold upd3 in H. cbn in H. replace (rne 5 0) with true in H by (symmetry; apply rne_spec; lra). injection H as H _.
    rewrite (dbl_exact (dbl (sample * 5))) in H by (apply generic_format_round; typeclasses eauto).
    pose proof fifth_less. lra.
  - cbn in E. discriminate.
Qed.

(* two rows of a baseline, at -1/2 and 3 * 2^-55 *)
Definition times2 : arr R := fun i => match i with O => - / 2 | _ => RoundProofs4.small end.
Lemma small_val : RoundProofs4.small = 3 / 2 ^ 55. Proof. exact RoundProofs4.small_val. Qed.
Lemma dbl_half : dbl (2 * / 2) = 1.
Proof. replace (2 * / 2) with 1 by lra. apply dbl_exact, RoundProofs4.fmt_1. Qed.
Lemma dbl_start : dbl (- / 2 - 1) = - (3 / 2).
Proof.
  replace (- / 2 - 1) with (F2R (Float radix2 (-3) (-1))) by (unfold F2R; cbn; lra). rewrite dbl_exact by (apply RoundProofs4.fmt_F2R; reflexivity).
  unfold F2R; cbn; lra.
Qed.
Lemma dbl_width : dbl (1 - - (3 / 2)) = 5 / 2.
Proof.
  replace (1 - - (3 / 2)) with (F2R (Float radix2 5 (-1))) by (unfold F2R; cbn; lra). rewrite dbl_exact by (apply RoundProofs4.fmt_F2R; reflexivity).
  unfold F2R; cbn; lra.
Qed.
Theorem width_exceeded : ~ (forall big n time interval ant1 ant2 flag_row secs w out, 0 <= secs -> 0 <= w ->
  (forall i, (i < n)%nat -> fmt (time i)) -> fmt secs -> fmt w ->
  int32_col n ant1 -> int32_col n ant2 -> sentinel_above (rounded_rows dbl big) n time -> (forall i, (i < n)%nat -> interval i = w) ->
  row_mapper (rounded_rows dbl big) n time interval ant1 ant2 flag_row secs = Ok out ->
  forall i j, (i < n)%nat -> (j < n)%nat -> rm_map _ out i = rm_map _ out j -> time i < time j ->
    (time j + w / 2) - (time i - w / 2) <= secs).
Proof.
  intros A. set (F := rounded_rows dbl 1000). pose proof (rounded_rows_ok dbl 1000) as OK.
  assert (SV := small_val).
  assert (HS : sentinel_above F 2 times2).
  { apply (below_sentinel dbl (/ 2 ^ 53) RoundProofs4.nearest_53 1000 2 times2 1).
    - intros [|i] _; cbn [times2]; [rewrite Rabs_left; lra|]. rewrite Rabs_pos_eq; rewrite SV; lra.
    - assert (/ 2 ^ 53 <= 1) by lra. assert (0 < / 2 ^ 53) by lra. set (e := / 2 ^ 53) in *. clearbody e. cbn [pow]. nra. }
  assert (I1 : forall z, (0 <= z <= 1)%Z -> int32_col 2 (fun _ => z)) by (intros z Hz i _; unfold is_int32; lia).
  assert (RD : rows_distinct 2 times2 (fun _ => 0%Z) (fun _ => 1%Z)).
  { intros [|[|i]] [|[|j]] Hi Hj E _; try lia; cbn [times2] in E; rewrite SV in E; lra. }
  destruct (proj2 (row_mapper_ok_iff F OK 2 times2 (fun _ => 2) (fun _ => 0%Z) (fun _ => 1%Z) None (5 / 2) (I1 0%Z ltac:(lia)) (I1 1%Z ltac:(lia)) HS)) as [out E]; [exact RD|].
  assert (Er : earliest F 2 times2 (fun _ => 0%Z) (fun _ => 1%Z) 0 1).
  { split; [lia|]. split; [split; reflexivity|]. intros [|[|j]] Hj _; try lia; apply rlt_false; cbn [times2]; rewrite ?SV; lra. }
  destruct (rm_open_rule F OK 2 times2 (fun _ => 2) (fun _ => 0%Z) (fun _ => 1%Z) None (5 / 2) out (I1 0%Z ltac:(lia)) (I1 1%Z ltac:(lia)) HS E 0%nat 1%nat ltac:(lia) Er ltac:(lia)) as [_ O].
  assert (Ho : ltb F (5 / 2) (sub F (row_end F times2 (fun _ => 2) 1) (row_start F times2 (fun _ => 2) 0)) = false).
  { apply rlt_false. unfold row_end, row_start. cbn [sub add half F rounded_rows times2]. rewrite dbl_half, (Rplus_comm _ 1), RoundProofs4.fl_one, dbl_start, dbl_width. lra. }
  destruct (O Ho) as (p & Hp & M & L). apply rlt_spec in L. assert (p = 0)%nat by (destruct p as [|[|p]]; [reflexivity|lra|lia]). subst p.
  pose proof (A 1000 2%nat times2 (fun _ => 2) (fun _ => 0%Z) (fun _ => 1%Z) None (5 / 2) 2 out) as H.
  assert (X : times2 1%nat + 2 / 2 - (times2 0%nat - 2 / 2) <= 5 / 2).
  { apply H; try lra; try lia; auto.
    - intros [|i] _; cbn [times2].
      + replace (- / 2) with (F2R (Float radix2 (-1) (-1))) by (unfold F2R; cbn; lra). apply RoundProofs4.fmt_F2R. reflexivity.
      + exact RoundProofs4.fmt_small.
    - replace (5 / 2) with (F2R (Float radix2 5 (-1))) by (unfold F2R; cbn; lra). apply RoundProofs4.fmt_F2R. reflexivity.
    - replace 2 with (F2R (Float radix2 2 0)) by (unfold F2R; cbn; ring). apply RoundProofs4.fmt_F2R. reflexivity.
    - apply I1. lia.
    - apply I1. lia. }
  cbn [times2] in X. rewrite SV in X. lra.
Qed.

(* two ascending lists of the same pairs are the same list *)
Lemma pairs_unique : forall l l' : list (nat * nat), StronglySorted pair_lt l -> StronglySorted pair_lt l' ->
  (forall p, In p l <-> In p l') -> l = l'.
Proof.
  assert (irr : forall p, ~ pair_lt p p) by (intros p [H|[_ H]]; lia).
  assert (asym : forall p q, pair_lt p q -> pair_lt q p -> False) by (intros p q [H|[H1 H]] [H'|[H1' H']]; lia).
  induction l as [|a l IH]; intros [|b l'] S S' E; [reflexivity| | |].
  - destruct (proj2 (E b)). left. reflexivity.
  - destruct (proj1 (E a)). left. reflexivity.
  - inversion S as [|? ? S1 F1]; subst. inversion S' as [|? ? S2 F2]; subst. rewrite Forall_forall in F1, F2.
    assert (a = b).
    { destruct (proj1 (E a) (or_introl eq_refl)) as [->|A]; [reflexivity|]. destruct (proj2 (E b) (or_introl eq_refl)) as [->|B]; [reflexivity|].
      destruct (asym a b); auto. }
    subst b. f_equal. apply IH; auto. intros p. split; intros I.
    + destruct (proj1 (E p) (or_intror I)) as [<-|J]; [|exact J]. destruct (irr a). auto.
    + destruct (proj2 (E p) (or_intror I)) as [<-|J]; [|exact J]. destruct (irr a). auto.
Qed.
