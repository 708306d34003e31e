(* Double precision: the bounds in numbers, and what rounding breaks. *)
From Coq Require Import Reals Lra Lia Permutation.
From Flocq Require Import Core.
From Verif Require Import Prelude PreludeFacts CRing CplxR PredictModel PredictSpec PredictProofs DaskPredictModel DaskPredictSpec DaskPredictProofs DaskPredictProofs2
  RoundModel RoundSpec RoundProofs RoundProofs2 RoundProofs3.
Open Scope R_scope.

Lemma gamma_bound u n : 0 <= u -> INR n * u < 1 -> gamma u n <= INR n * u / (1 - INR n * u).
Proof.
  intros Hu Hn. unfold gamma.
  assert (H : (1 + u) ^ n * (1 - INR n * u) <= 1).
  { clear Hn. induction n as [|n IH]; [simpl; lra|]. rewrite S_INR. cbn [pow].
    assert (0 <= (1 + u) ^ n) by (apply pow_le; lra). pose proof (pos_INR n).
    assert ((1 + u) * (1 - (INR n + 1) * u) <= 1 - INR n * u) by nra.
    replace ((1 + u) * (1 + u) ^ n * (1 - (INR n + 1) * u)) with ((1 + u) ^ n * ((1 + u) * (1 - (INR n + 1) * u))) by ring.
    eapply Rle_trans; [apply Rmult_le_compat_l; [assumption|eassumption]|exact IH]. }
  assert (0 < 1 - INR n * u) by lra. apply (Rmult_le_reg_r (1 - INR n * u)); [assumption|].
  replace (INR n * u / (1 - INR n * u) * (1 - INR n * u)) with (INR n * u) by (field; lra).
  rewrite Rmult_minus_distr_r. lra.
Qed.

Lemma bpow_2 n : bpow radix2 (- Z.of_nat n) = / 2 ^ n.
Proof. rewrite bpow_opp, bpow_powerRZ, <- pow_powerRZ. reflexivity. Qed.
Lemma nearest_53 : roundoff (nearest 53) (/ 2 ^ 53).
Proof. pose proof (nearest_roundoff 53 eq_refl) as H. change (- (53))%Z with (- Z.of_nat 53)%Z in H. now rewrite bpow_2 in H. Qed.
Lemma nearest_24 : roundoff (nearest 24) (/ 2 ^ 24).
Proof. pose proof (nearest_roundoff 24 eq_refl) as H. change (- (24))%Z with (- Z.of_nat 24)%Z in H. now rewrite bpow_2 in H. Qed.

Notation fl := (nearest 53).
Notation fmt := (generic_format radix2 (FLX_exp 53)).
Global Instance prec53 : Prec_gt_0 53. Proof. reflexivity. Qed.
Lemma fmt_F2R m e : (Z.abs m < 2 ^ 53)%Z -> fmt (F2R (Float radix2 m e)).
Proof. intros H. apply generic_format_FLX. exists (Float radix2 m e); [reflexivity|exact H]. Qed.
Lemma fl_exact x : fmt x -> fl x = x.
Proof. intros H. apply round_generic; [typeclasses eauto|exact H]. Qed.
Definition small : R := F2R (Float radix2 3 (-55)).
Lemma small_val : small = 3 / 2 ^ 55.
Proof. unfold small, F2R. cbn [Fnum Fexp]. change (-55)%Z with (- Z.of_nat 55)%Z. rewrite bpow_2. unfold Rdiv. reflexivity. Qed.
Lemma fmt_1 : fmt 1.
Proof. replace 1 with (F2R (Float radix2 1 0)) by (unfold F2R; cbn; ring). now apply fmt_F2R. Qed.
Lemma fmt_small : fmt small.
Proof. now apply fmt_F2R. Qed.
Lemma fmt_two : fmt (small + small).
Proof.
  replace (small + small) with (F2R (Float radix2 6 (-55))); [now apply fmt_F2R|].
  unfold small, F2R. cbn [Fnum Fexp]. ring.
Qed.
Lemma fl_0 : fl 0 = 0.
Proof. apply round_0. typeclasses eauto. Qed.
Lemma half_52 : bpow radix2 (- (53) + 1) = / 2 ^ 52.
Proof. change (- (53) + 1)%Z with (- Z.of_nat 52)%Z. apply bpow_2. Qed.
Lemma fl_one : fl (1 + small) = 1.
Proof.
  apply Rle_antisym.
  - apply round_N_le_midp; [typeclasses eauto|exact fmt_1|]. rewrite succ_FLX_1, half_52, small_val. lra.
  - apply round_ge_generic; [typeclasses eauto|typeclasses eauto|exact fmt_1|]. rewrite small_val. lra.
Qed.
Lemma fl_more : 1 < fl (1 + (small + small)).
Proof.
  apply Rlt_le_trans with (succ radix2 (FLX_exp 53) 1); [rewrite succ_FLX_1, half_52; lra|].
  apply round_N_ge_midp; [typeclasses eauto|apply generic_format_succ; [typeclasses eauto|exact fmt_1]|].
  rewrite pred_succ; [|typeclasses eauto|exact fmt_1]. rewrite succ_FLX_1, half_52, small_val. lra.
Qed.

Notation F := (rounded fl).
Definition re (x : R) : F := (x, 0).
Lemma re_add x y : cadd (re x) (re y) = re (fl (x + y)).
Proof. unfold re. cbn. rewrite Rplus_0_r, fl_0. reflexivity. Qed.
Lemma zero_add x : fmt x -> cadd (@c0 F) (re x) = re x.
Proof. intros H. change (@c0 F) with (re 0). rewrite re_add, Rplus_0_l, (fl_exact x H). reflexivity. Qed.

Lemma sources_shapes {K : cops} (l : list K) : shapes false (length l) 1 1 (sources l).
Proof. constructor; cbn; try discriminate. intros e H. injection H as <-. cbn. auto. Qed.
Lemma sources_paired {K : cops} (l : list K) : paired (p_dde1 (sources l)) (p_dde2 (sources l)) /\ paired (p_die1 (sources l)) (p_die2 (sources l)).
Proof. unfold paired. cbn. tauto. Qed.
Lemma min_one (t : arr Z) : is_min 1 t (t 0%nat).
Proof. split; [exists 0%nat; split; [lia|reflexivity]|]. intros i Hi. replace i with 0%nat by lia. lia. Qed.
Lemma sources_sum {K : cops} (l : list K) out : predict_vis (sources l) = Ok out -> v_at out 0%nat 0%nat 0%nat 0%nat = csum (length l) (fun s => nth s l c0).
Proof.
  intros E. destruct (sources_paired l) as [P1 P2].
  destruct (predict_free false (length l) 1 1 (sources l) (sources_shapes l) P1 P2) as (o & Eo & _ & _ & _ & _ & H); [right; left; discriminate|cbn; lia|].
  rewrite E in Eo. injection Eo as <-.
  rewrite (H 0%Z (min_one _) 0%nat 0%nat ltac:(cbn; lia) ltac:(lia) 0%nat 0%nat); [reflexivity|]. split; lia.
Qed.
Lemma sources_ok {K : cops} (l : list K) : exists out, predict_vis (sources l) = Ok out.
Proof.
  destruct (sources_paired l) as [P1 P2].
  destruct (predict_free false (length l) 1 1 (sources l) (sources_shapes l) P1 P2) as (o & Eo & _); [right; left; discriminate|cbn; lia|]. eauto.
Qed.

Lemma sum_up : csum 3 (fun s => nth s [re 1; re small; re small] c0) = re 1.
Proof. cbn [csum nth]. rewrite (zero_add 1 fmt_1), re_add, fl_one, re_add, fl_one. reflexivity. Qed.
Lemma sum_down : csum 3 (fun s => nth s [re small; re small; re 1] c0) <> re 1.
Proof.
  cbn [csum nth]. rewrite (zero_add small fmt_small), re_add, (fl_exact _ fmt_two), re_add, (Rplus_comm _ 1).
  unfold re. intros H. injection H as H. pose proof fl_more. lra.
Qed.

Theorem order_matters : ~ (forall l l' (out out' : vis_arr F), Permutation l l' -> predict_vis (sources l) = Ok out -> predict_vis (sources l') = Ok out' ->
  v_at out 0%nat 0%nat 0%nat 0%nat = v_at out' 0%nat 0%nat 0%nat 0%nat).
Proof.
  intros A. destruct (sources_ok [re 1; re small; re small]) as [o E], (sources_ok [re small; re small; re 1]) as [o' E'].
  assert (Pm : Permutation [re 1; re small; re small] [re small; re small; re 1]) by exact (Permutation_app_comm [re 1] [re small; re small]).
  pose proof (A _ _ _ _ Pm E E') as H. rewrite (sources_sum _ _ E), (sources_sum _ _ E') in H.
  cbn [length] in H. rewrite sum_up in H. exact (sum_down (eq_sym H)).
Qed.

Definition split12 : chunking := {| ck_src := [1; 2]; ck_row := [1]; ck_time := [1]; ck_chan := [1] |}%nat.
Theorem chunks_matter : ~ (forall full nsrc nchan ncorr (a : predict_in F) ch rb cb whole v out,
  shapes full nsrc nchan ncorr a -> paired (p_dde1 a) (p_dde2 a) -> paired (p_die1 a) (p_die2 a) -> (p_dde1 a <> None \/ p_coh a <> None) ->
  chunks_ok ch nsrc nchan a -> (rb < length (ck_row ch))%nat -> (cb < length (ck_chan ch))%nat ->
  predict_vis a = Ok whole -> reduction_value ch a rb cb (VVis v) -> finish_block ch a (Some v) rb cb = Ok out -> block_equals full ncorr ch rb cb whole out).
Proof.
  intros A. set (a := sources [re 1; re small; re small]). destruct (sources_ok [re 1; re small; re small]) as [o E].
  assert (B0 : exists w, predict_vis (blk_in a split12 0 0 0 None)%nat = Ok w /\ v_at w 0%nat 0%nat 0%nat 0%nat = re 1).
  { destruct (predict_free false 1 1 1 (blk_in a split12 0 0 0 None)%nat) as (w & Ew & _ & _ & _ & _ & H);
      try (unfold paired; cbn; tauto); [|right; left; discriminate|cbn; lia|].
    { refine (blk_shapes false 3 1 1 a split12 (sources_shapes [re 1; re small; re small]) 0 0 0 None _). discriminate. }
    exists w. split; [exact Ew|]. rewrite (H _ (min_one _) 0%nat 0%nat ltac:(cbn; lia) ltac:(lia) 0%nat 0%nat ltac:(split; lia)).
    exact (zero_add 1 fmt_1). }
  assert (B1 : exists w, predict_vis (blk_in a split12 1 0 0 None)%nat = Ok w /\ v_at w 0%nat 0%nat 0%nat 0%nat = re (small + small)).
  { destruct (predict_free false 2 1 1 (blk_in a split12 1 0 0 None)%nat) as (w & Ew & _ & _ & _ & _ & H);
      try (unfold paired; cbn; tauto); [|right; left; discriminate|cbn; lia|].
    { refine (blk_shapes false 3 1 1 a split12 (sources_shapes [re 1; re small; re small]) 1 0 0 None _). discriminate. }
    exists w. split; [exact Ew|]. rewrite (H _ (min_one _) 0%nat 0%nat ltac:(cbn; lia) ltac:(lia) 0%nat 0%nat ltac:(split; lia)).
    transitivity (cadd (cadd (@c0 F) (re small)) (re small)); [reflexivity|]. rewrite (zero_add small fmt_small), re_add, (fl_exact _ fmt_two). reflexivity. }
  destruct B0 as (w0 & E0 & V0), B1 as (w1 & E1 & V1).
  assert (T : tree_sum split12 a 0%nat 0%nat (Node (Leaf 0%nat) (Leaf 1%nat)) = Ok (add_vis w0 w1)).
  { cbn [tree_sum]. change (coh_block split12 a 0 0 0)%nat with (predict_vis (blk_in a split12 0 0 0 None)%nat).
    change (coh_block split12 a 1 0 0)%nat with (predict_vis (blk_in a split12 1 0 0 None)%nat). now rewrite E0, E1. }
  destruct (A false 3%nat 1%nat 1%nat a split12 0%nat 0%nat o (add_vis w0 w1) (add_vis w0 w1)) as (_ & _ & _ & H).
  - exact (sources_shapes [re 1; re small; re small]).
  - apply sources_paired.
  - apply sources_paired.
  - right. discriminate.
  - constructor; cbn; try reflexivity; try discriminate.
    + intros rb H. replace rb with 0%nat by lia. lia.
    + intros tmin Hm rb H. replace rb with 0%nat by lia. cbn. rewrite Z.add_0_r. exact Hm.
  - cbn. lia.
  - cbn. lia.
  - exact E.
  - apply (by_tree _ _ _ _ (Node (Leaf 0%nat) (Leaf 1%nat))); [reflexivity|exact T].
  - reflexivity.
  - pose proof (H 0%nat 0%nat ltac:(cbn; lia) ltac:(cbn; lia) 0%nat 0%nat ltac:(split; lia)) as G.
    cbn [add_vis v_at] in G. rewrite V0, V1, re_add in G.
    change (chunk_off (ck_row split12) 0 + 0)%nat with 0%nat in G. change (chunk_off (ck_chan split12) 0 + 0)%nat with 0%nat in G.
    rewrite (sources_sum _ _ E) in G. cbn [length] in G. rewrite sum_up in G. unfold re in G. injection G as G. pose proof fl_more. lra.
Qed.
