(* correction of corrupted data, chunked calibration, chunkify_rows *)
From Coq Require Import Ring Ring_theory Field Sorting.Sorted.
From Verif Require Import Prelude PreludeFacts CRing CField PredictModel PredictSpec PredictProofs
  NumpyModel AvgModel AvgSpec SortFacts AvgProofs3 AvgProofs4 CalModel CalSpec CalProofs.
Open Scope nat_scope.

Section Compose.
  Context {F : fops} (L : flaws F).

  Lemma check_type_vis jn mn mode : check_type jn mn VT_model = Ok mode -> check_type jn (mode_ndim mode) VT_vis = Ok mode.
  Proof.
    intros H. pose proof (mode_of_model _ _ _ H) as E. revert H. rewrite E. unfold check_type. destruct mode; cbn -[Nat.eqb];
    repeat (match goal with |- context [Nat.eqb ?a ?b] => destruct (Nat.eqb a b) eqn:? end; cbn -[Nat.eqb]);
    repeat match goal with H : Nat.eqb (S _) _ = true |- _ => apply Nat.eqb_eq in H; try discriminate H end;
    repeat match goal with H : Nat.eqb _ _ = false |- _ => vm_compute in H; try discriminate H end; intros; congruence.
  Qed.

  (* correct_vis undoes corrupt_vis *)
  Theorem correct_corrupt n tbi tbc ant1 ant2 (g : gain_arr F) (m : model_arr F) flag mode tmin :
    check_type (j_ndim g) (m_ndim m) VT_model = Ok mode ->
    m_dir m = 1 -> j_dir g = 1 -> j_tim g = n -> j_chan g = m_chan m ->
    0 < n -> is_min n tbi tmin -> bins_disjoint n tbi tmin tbc ->
    exists tbi' tbi'' v out,
      corrupt_vis n tbi tbc ant1 ant2 g m = Ok (tbi', v) /\
      correct_vis n tbi' tbc ant1 ant2 g v flag = Ok (tbi'', out) /\
      forall t r f, t < n -> in_bin tbi tmin tbc t r -> f < m_chan m ->
        gain_ok mode (m_corr m) (j_at g t (ant1 r) f 0) -> gain_ok mode (m_corr m) (j_at g t (ant2 r) f 0) ->
        ~ flagged (mode_full mode) (m_corr m) (flag r f) ->
        jeq (mode_full mode) (m_corr m) (v_at out r f) (m_at m r f 0).
  Proof.
    intros Hc Hmd Hjd Ht Hch Hn Hm Hd.
    destruct (corrupt_vis_spec L n tbi tbc ant1 ant2 g m mode tmin Hc Hn Hm Hd)
      as (tbi' & v & E & Et & V1 & V2 & V3 & V4 & V5).
    assert (Hm' : is_min n tbi' 0%Z).
    { destruct Hm as [[r [Hr Er]] Hm]. split; [exists r; split; [exact Hr|]; rewrite Et; lia|].
      intros t Htt. rewrite Et. specialize (Hm t Htt). lia. }
    assert (Hb : forall t r, in_bin tbi' 0 tbc t r <-> in_bin tbi tmin tbc t r).
    { intros t r. unfold in_bin. rewrite Et. lia. }
    assert (Hd' : bins_disjoint n tbi' 0%Z tbc).
    { intros t t' r H1 H2 H3 H4. apply (Hd t t' r); try assumption; now apply Hb. }
    destruct (correct_vis_spec (F := F) n tbi' tbc ant1 ant2 g v flag mode 0%Z) as (tbi'' & out & E2 & _ & _ & _ & _ & _ & S5);
      try assumption; try lia.
    { rewrite V1. eapply check_type_vis; eassumption. }
    exists tbi', tbi'', v, out. split; [exact E|]. split; [exact E2|].
    intros t r f Htt Hbin Hf Ga Gb Hfl i j C.
    rewrite V3 in S5. destruct (S5 r f Hf) as [S6 _]. rewrite (S6 t Htt (proj2 (Hb t r) Hbin)) by (rewrite V4; exact Hfl).
    rewrite V4. destruct (V5 r f Hf) as [V6 _]. specialize (V6 t Htt Hbin).
    rewrite (correct_mul_ext (F := F) mode (m_corr m) _ _ (gsandwich mode (j_at g t (ant1 r) f 0) (m_at m r f 0) (j_at g t (ant2 r) f 0))).
    - now apply (correct_mul_right L).
    - intros i' j' C'. rewrite (V6 i' j' C'). unfold corrupted, jsum. rewrite Hmd. cbn [csum].
      exact (Radd_0_l (law_ring F (law_c F L)) _).
    - exact C.
  Qed.

  (* correcting gives the visibilities whose corruption is the data *)
  Theorem corrupt_correct n tbi tbc ant1 ant2 (g : gain_arr F) (v : vis_arr F) flag mode tmin :
    check_type (j_ndim g) (v_ndim v) VT_vis = Ok mode -> j_dir g = 1 -> j_tim g = n -> j_chan g = v_chan v ->
    0 < n -> is_min n tbi tmin -> bins_disjoint n tbi tmin tbc ->
    exists tbi' out, correct_vis n tbi tbc ant1 ant2 g v flag = Ok (tbi', out) /\
      v_ndim out = v_ndim v /\ v_row out = v_row v /\ v_chan out = v_chan v /\ v_corr out = v_corr v /\
      forall r f, f < v_chan v ->
        (forall t, t < n -> in_bin tbi tmin tbc t r -> ~ flagged (mode_full mode) (v_corr v) (flag r f) ->
           gain_ok mode (v_corr v) (j_at g t (ant1 r) f 0) -> gain_ok mode (v_corr v) (j_at g t (ant2 r) f 0) ->
           jeq (mode_full mode) (v_corr v)
             (gsandwich mode (j_at g t (ant1 r) f 0) (v_at out r f) (j_at g t (ant2 r) f 0)) (v_at v r f)) /\
        ((flagged (mode_full mode) (v_corr v) (flag r f) \/ forall t, t < n -> ~ in_bin tbi tmin tbc t r) ->
           jeq (mode_full mode) (v_corr v) (v_at out r f) jzero).
  Proof.
    intros Hc Hjd Ht Hch Hn Hm Hd.
    destruct (correct_vis_spec (F := F) n tbi tbc ant1 ant2 g v flag mode tmin) as (tbi' & out & E & E1 & E2 & E3 & E4 & E5 & S);
      try assumption; try lia.
    exists tbi', out. split; [exact E|]. do 4 (split; [assumption|]). intros r f Hf. destruct (S r f Hf) as [S1 S2].
    split; [|exact S2]. intros t Htt Hb Hfl Ga Gb i j C. rewrite (S1 t Htt Hb Hfl).
    now apply (correct_mul_left L).
  Qed.

  Theorem correct_many_directions n tbi tbc ant1 ant2 (g : gain_arr F) (v : vis_arr F) flag mode :
    check_type (j_ndim g) (v_ndim v) VT_vis = Ok mode -> 1 < j_dir g ->
    correct_vis n tbi tbc ant1 ant2 g v flag = Raise ValueError.
  Proof.
    intros Hc H. unfold correct_vis. rewrite Hc. cbn [bind]. destruct (Nat.eqb n 0); [reflexivity|].
    destruct (Nat.ltb_spec 1 (j_dir g)); [reflexivity|lia].
  Qed.

  (* ---------- chunked calibration ---------- *)
  Lemma bin_dec n tbi tmin tbc r :
    (exists t, t < n /\ in_bin tbi tmin tbc t r) \/ forall t, t < n -> ~ in_bin tbi tmin tbc t r.
  Proof.
    induction n as [|m [[t [Ht Hb]]|IH]]; [right; intros; lia|left; exists t; split; [lia|exact Hb]|].
    assert (Dm : in_bin tbi tmin tbc m r \/ ~ in_bin tbi tmin tbc m r) by (unfold in_bin; lia).
    destruct Dm as [Dm|Dm]; [left; exists m; split; [lia|exact Dm]|].
    right. intros t Ht. destruct (Nat.eq_dec t m) as [->|]; [exact Dm|]. apply IH. lia.
  Qed.

  Lemma flag_dec full n fl : flagged full n fl \/ ~ flagged full n fl.
  Proof.
    destruct full.
    - destruct (any_flag FULL n fl) eqn:E.
      + left. now apply (any_flag_spec FULL).
      + right. intros H. apply (any_flag_spec FULL) in H. congruence.
    - destruct (any_flag DIAG_DIAG n fl) eqn:E.
      + left. now apply (any_flag_spec DIAG_DIAG).
      + right. intros H. apply (any_flag_spec DIAG_DIAG) in H. congruence.
  Qed.

  Section Block.
    Context (n : nat) (tbi : arr Z) (tmin : Z) (tbc : arr nat) (toff nt roff nr : nat).
    Context (A : aligned n tbi tmin tbc toff nt roff nr).
    Notation btbi := (shift toff tbi).
    Notation btbc := (shift toff tbc).
    Notation bmin := (tmin + Z.of_nat roff)%Z.

    Lemma blk_in_bin t r : in_bin btbi bmin btbc t r <-> in_bin tbi tmin tbc (toff + t) (roff + r).
    Proof. unfold in_bin, shift. lia. Qed.
    Lemma blk_disjoint : bins_disjoint n tbi tmin tbc -> bins_disjoint nt btbi bmin btbc.
    Proof.
      intros Hd t t' r H1 H2 H3 H4. apply blk_in_bin in H3, H4. pose proof (al_tim _ _ _ _ _ _ _ _ A).
      specialize (Hd (toff + t) (toff + t') (roff + r) ltac:(lia) ltac:(lia) H3 H4). lia.
    Qed.
    (* a row of the chunk is in a bin of the table iff it is in one of the chunk *)
    Lemma blk_none r : r < nr -> (forall t, t < nt -> ~ in_bin btbi bmin btbc t r) ->
      forall t, t < n -> ~ in_bin tbi tmin tbc t (roff + r).
    Proof.
      intros Hr H t Ht Hb. pose proof (al_out _ _ _ _ _ _ _ _ A t (roff + r) Ht Hb ltac:(lia)) as [H1 H2].
      apply (H (t - toff)); [lia|]. apply blk_in_bin. replace (toff + (t - toff)) with t by lia. exact Hb.
    Qed.
  End Block.

  Lemma jeq_trans full n (a b c : jones F) : jeq full n a b -> jeq full n b c -> jeq full n a c.
  Proof. intros H1 H2 i j C. now rewrite (H1 i j C), (H2 i j C). Qed.
  Lemma jeq_sym full n (a b : jones F) : jeq full n a b -> jeq full n b a.
  Proof. intros H1 i j C. now rewrite (H1 i j C). Qed.

  Lemma off_nth_le l i f : f < nth i l 0 -> off l i + f < list_sum l.
  Proof.
    unfold off. revert i. induction l as [|x l IH]; intros [|i]; cbn [nth firstn list_sum fold_right]; try lia.
    intros H. specialize (IH i H). unfold list_sum in *. cbn [fold_right]. lia.
  Qed.

  Theorem dask_corrupt n tbi tbc ant1 ant2 (g : gain_arr F) (m : model_arr F) mode tmin ch nant :
    check_type (j_ndim g) (m_ndim m) VT_model = Ok mode ->
    0 < n -> is_min n tbi tmin -> bins_disjoint n tbi tmin tbc ->
    hd 0 (cc_jant ch) = nant -> hd 0 (cc_jdir ch) = j_dir g -> hd 0 (cc_mdir ch) = m_dir m ->
    list_sum (cc_chan ch) = m_chan m ->
    exists tbi' whole blocks, corrupt_vis n tbi tbc ant1 ant2 g m = Ok (tbi', whole) /\
      dask_corrupt_vis ch nant tbi tbc ant1 ant2 g m = Ok blocks /\
      forall rb, chunk_aligned n tbi tmin tbc ch rb -> forall cb, exists btbi b, blocks rb cb = Ok (btbi, b) /\
        v_row b = nth rb (cc_row ch) 0 /\ v_chan b = nth cb (cc_chan ch) 0 /\ v_ndim b = v_ndim whole /\ v_corr b = v_corr whole /\
        forall r f, r < nth rb (cc_row ch) 0 -> f < nth cb (cc_chan ch) 0 ->
          jeq (mode_full mode) (m_corr m) (v_at b r f) (v_at whole (off (cc_row ch) rb + r) (off (cc_chan ch) cb + f)).
  Proof.
    intros Hc Hn Hm Hd G1 G2 G3 Hch.
    destruct (corrupt_vis_raw n tbi tbc ant1 ant2 g m mode tmin Hc Hn Hm Hd) as (tbi' & whole & E & _ & W1 & W2 & W3 & W4 & W5).
    unfold dask_corrupt_vis, chunked_axis. rewrite Hc, G1, G2, G3, !Nat.eqb_refl. cbn [bind negb].
    do 3 eexists. split; [exact E|]. split; [reflexivity|]. intros rb A cb. cbn beta.
    unfold chunk_aligned in A.
    destruct (corrupt_vis_raw (nth rb (cc_time ch) 0) (shift (off (cc_time ch) rb) tbi) (shift (off (cc_time ch) rb) tbc)
        (shift (off (cc_row ch) rb) ant1) (shift (off (cc_row ch) rb) ant2) (blk_gain ch rb cb g) (blk_model ch rb cb m)
        mode (tmin + Z.of_nat (off (cc_row ch) rb))%Z)
      as (btbi & b & E' & _ & B1 & B2 & B3 & B4 & B5).
    { exact Hc. } { exact (al_pos _ _ _ _ _ _ _ _ A). } { exact (al_min _ _ _ _ _ _ _ _ A). } { eapply blk_disjoint; eassumption. }
    exists btbi, b. split; [exact E'|]. rewrite B2, B3, B1, W1, B4, W4. cbn [blk_model m_row m_chan m_corr] in *.
    do 4 (split; [reflexivity|]). intros r f Hr Hf.
    destruct (B5 r f Hf) as [B6 B7].
    destruct (W5 (off (cc_row ch) rb + r) (off (cc_chan ch) cb + f)) as [W6 W7].
    { rewrite <- Hch. now apply off_nth_le. }
    destruct (bin_dec (nth rb (cc_time ch) 0) (shift (off (cc_time ch) rb) tbi) (tmin + Z.of_nat (off (cc_row ch) rb)) (shift (off (cc_time ch) rb) tbc) r)
      as [[t [Ht Hb]]|Hnone].
    - rewrite (B6 t Ht Hb). apply blk_in_bin in Hb. pose proof (al_tim _ _ _ _ _ _ _ _ A).
      rewrite (W6 (off (cc_time ch) rb + t) ltac:(lia) Hb).
      intros i j C. cbn [blk_model blk_gain m_dir j_at m_at]. rewrite G3. reflexivity.
    - rewrite (B7 Hnone), W7; [intros i j C; reflexivity|]. eapply blk_none; eassumption.
  Qed.

  Theorem dask_residual n tbi tbc ant1 ant2 (g : gain_arr F) (v : vis_arr F) flag (m : model_arr F) mode tmin ch nant :
    check_type (j_ndim g) (v_ndim v) VT_vis = Ok mode ->
    0 < n -> is_min n tbi tmin -> bins_disjoint n tbi tmin tbc ->
    hd 0 (cc_jant ch) = nant -> hd 0 (cc_jdir ch) = j_dir g -> hd 0 (cc_mdir ch) = m_dir m ->
    list_sum (cc_chan ch) = v_chan v ->
    exists tbi' whole blocks, residual_vis n tbi tbc ant1 ant2 g v flag m = Ok (tbi', whole) /\
      dask_residual_vis ch nant tbi tbc ant1 ant2 g v flag m = Ok blocks /\
      forall rb, chunk_aligned n tbi tmin tbc ch rb -> forall cb, exists btbi b, blocks rb cb = Ok (btbi, b) /\
        v_row b = nth rb (cc_row ch) 0 /\ v_chan b = nth cb (cc_chan ch) 0 /\ v_ndim b = v_ndim whole /\ v_corr b = v_corr whole /\
        forall r f, r < nth rb (cc_row ch) 0 -> f < nth cb (cc_chan ch) 0 ->
          jeq (mode_full mode) (v_corr v) (v_at b r f) (v_at whole (off (cc_row ch) rb + r) (off (cc_chan ch) cb + f)).
  Proof.
    intros Hc Hn Hm Hd G1 G2 G3 Hch.
    destruct (residual_vis_raw n tbi tbc ant1 ant2 g v flag m mode tmin Hc Hn Hm Hd) as (tbi' & whole & E & _ & W1 & W2 & W3 & W4 & W5).
    unfold dask_residual_vis, chunked_axis. rewrite Hc, G1, G2, G3, !Nat.eqb_refl. cbn [bind negb].
    do 3 eexists. split; [exact E|]. split; [reflexivity|]. intros rb A cb. cbn beta.
    unfold chunk_aligned in A.
    destruct (residual_vis_raw (nth rb (cc_time ch) 0) (shift (off (cc_time ch) rb) tbi) (shift (off (cc_time ch) rb) tbc)
        (shift (off (cc_row ch) rb) ant1) (shift (off (cc_row ch) rb) ant2) (blk_gain ch rb cb g) (blk_v ch rb cb v)
        (blk_flag ch rb cb flag) (blk_model ch rb cb m) mode (tmin + Z.of_nat (off (cc_row ch) rb))%Z)
      as (btbi & b & E' & _ & B1 & B2 & B3 & B4 & B5).
    { exact Hc. } { exact (al_pos _ _ _ _ _ _ _ _ A). } { exact (al_min _ _ _ _ _ _ _ _ A). } { eapply blk_disjoint; eassumption. }
    exists btbi, b. split; [exact E'|]. rewrite B2, B3, B1, W1, B4, W4. cbn [blk_v v_row v_chan v_corr v_ndim] in *.
    do 4 (split; [reflexivity|]). intros r f Hr Hf.
    destruct (B5 r f Hf) as [B6 B7].
    destruct (W5 (off (cc_row ch) rb + r) (off (cc_chan ch) cb + f)) as [W6 W7].
    { rewrite <- Hch. now apply off_nth_le. }
    destruct (flag_dec (mode_full mode) (v_corr v) (blk_flag ch rb cb flag r f)) as [Fl|Fl].
    { rewrite (B7 (or_introl Fl)), W7; [intros i j C; reflexivity|]. left. exact Fl. }
    destruct (bin_dec (nth rb (cc_time ch) 0) (shift (off (cc_time ch) rb) tbi) (tmin + Z.of_nat (off (cc_row ch) rb)) (shift (off (cc_time ch) rb) tbc) r)
      as [[t [Ht Hb]]|Hnone].
    - rewrite (B6 t Ht Hb Fl). apply blk_in_bin in Hb. pose proof (al_tim _ _ _ _ _ _ _ _ A).
      rewrite (W6 (off (cc_time ch) rb + t) ltac:(lia) Hb Fl).
      intros i j C. cbn [blk_model blk_gain blk_v m_dir j_at m_at v_at]. rewrite G3. reflexivity.
    - rewrite (B7 (or_intror Hnone)), W7; [intros i j C; reflexivity|]. right. eapply blk_none; eassumption.
  Qed.

  Theorem dask_correct n tbi tbc ant1 ant2 (g : gain_arr F) (v : vis_arr F) flag mode tmin ch nant :
    check_type (j_ndim g) (v_ndim v) VT_vis = Ok mode -> j_dir g <= 1 -> j_tim g = n -> j_chan g = v_chan v ->
    0 < n -> is_min n tbi tmin -> bins_disjoint n tbi tmin tbc ->
    hd 0 (cc_jant ch) = nant -> hd 0 (cc_jdir ch) = j_dir g ->
    list_sum (cc_chan ch) = v_chan v ->
    exists tbi' whole blocks, correct_vis n tbi tbc ant1 ant2 g v flag = Ok (tbi', whole) /\
      dask_correct_vis ch nant tbi tbc ant1 ant2 g v flag = Ok blocks /\
      forall rb, chunk_aligned n tbi tmin tbc ch rb -> forall cb, exists btbi b, blocks rb cb = Ok (btbi, b) /\
        v_row b = nth rb (cc_row ch) 0 /\ v_chan b = nth cb (cc_chan ch) 0 /\ v_ndim b = v_ndim whole /\ v_corr b = v_corr whole /\
        forall r f, r < nth rb (cc_row ch) 0 -> f < nth cb (cc_chan ch) 0 ->
          jeq (mode_full mode) (v_corr v) (v_at b r f) (v_at whole (off (cc_row ch) rb + r) (off (cc_chan ch) cb + f)).
  Proof.
    intros Hc Hdir Ht Hjc Hn Hm Hd G1 G2 Hch.
    destruct (correct_vis_spec n tbi tbc ant1 ant2 g v flag mode tmin Hc Hdir Ht Hjc Hn Hm Hd) as (tbi' & whole & E & _ & W1 & W2 & W3 & W4 & W5).
    unfold dask_correct_vis, chunked_axis. rewrite Hc, G1, G2, !Nat.eqb_refl. cbn [bind negb].
    do 3 eexists. split; [exact E|]. split; [reflexivity|]. intros rb A cb. cbn beta.
    unfold chunk_aligned in A.
    destruct (correct_vis_spec (nth rb (cc_time ch) 0) (shift (off (cc_time ch) rb) tbi) (shift (off (cc_time ch) rb) tbc)
        (shift (off (cc_row ch) rb) ant1) (shift (off (cc_row ch) rb) ant2) (blk_gain ch rb cb g) (blk_v ch rb cb v)
        (blk_flag ch rb cb flag) mode (tmin + Z.of_nat (off (cc_row ch) rb))%Z)
      as (btbi & b & E' & _ & B1 & B2 & B3 & B4 & B5).
    { exact Hc. } { cbn. lia. } { reflexivity. } { reflexivity. }
    { exact (al_pos _ _ _ _ _ _ _ _ A). } { exact (al_min _ _ _ _ _ _ _ _ A). } { eapply blk_disjoint; eassumption. }
    exists btbi, b. split; [exact E'|]. rewrite B2, B3, B1, W1, B4, W4. cbn [blk_v v_row v_chan v_corr v_ndim] in *.
    do 4 (split; [reflexivity|]). intros r f Hr Hf.
    destruct (B5 r f Hf) as [B6 B7].
    destruct (W5 (off (cc_row ch) rb + r) (off (cc_chan ch) cb + f)) as [W6 W7].
    { rewrite <- Hch. now apply off_nth_le. }
    destruct (flag_dec (mode_full mode) (v_corr v) (blk_flag ch rb cb flag r f)) as [Fl|Fl].
    { eapply jeq_trans; [exact (B7 (or_introl Fl))|]. apply jeq_sym. apply W7. left. exact Fl. }
    destruct (bin_dec (nth rb (cc_time ch) 0) (shift (off (cc_time ch) rb) tbi) (tmin + Z.of_nat (off (cc_row ch) rb)) (shift (off (cc_time ch) rb) tbc) r)
      as [[t [Htt Hb]]|Hnone].
    - rewrite (B6 t Htt Hb Fl). apply blk_in_bin in Hb. pose proof (al_tim _ _ _ _ _ _ _ _ A).
      rewrite (W6 (off (cc_time ch) rb + t) ltac:(lia) Hb Fl). intros i j C. reflexivity.
    - eapply jeq_trans; [exact (B7 (or_intror Hnone))|]. apply jeq_sym. apply W7. right.
      eapply blk_none; eassumption.
  Qed.
End Compose.

(* ---------- chunkify_rows ---------- *)
Lemma count_is_unique n P a b : count_is n P a -> count_is n P b -> a = b.
Proof.
  intros (l & N1 & I1 & <-) (l' & N2 & I2 & <-). apply Nat.le_antisymm.
  - apply NoDup_incl_length; [exact N1|]. intros i Hi. apply I2. now apply I1.
  - apply NoDup_incl_length; [exact N2|]. intros i Hi. apply I1. now apply I2.
Qed.
Lemma count_is_ext n (P Q : nat -> Prop) a : (forall i, i < n -> (P i <-> Q i)) -> count_is n P a -> count_is n Q a.
Proof.
  intros H (l & N1 & I1 & El). exists l. split; [exact N1|]. split; [|exact El].
  intros i. rewrite I1. split; intros [Hi Hp]; (split; [exact Hi|]); now apply (H i Hi).
Qed.
Lemma count_is_or n (P Q : nat -> Prop) a b : (forall i, i < n -> P i -> Q i -> False) ->
  count_is n P a -> count_is n Q b -> count_is n (fun i => P i \/ Q i) (a + b).
Proof.
  intros H (l & N1 & I1 & El) (l' & N2 & I2 & El'). exists (l ++ l'). split.
  - clear El El'. induction N1 as [|x l Hx N1 IH] in I1, H, P |- *; [exact N2|]. cbn. constructor.
    + rewrite in_app_iff. intros [C|C]; [now apply Hx|]. apply I2 in C.
      apply (H x (proj1 C)); [|apply C]. apply (I1 x). now left.
    + apply (IH (fun i => In i l)).
      * intros i Hi Hl Hq. apply (H i Hi); [|exact Hq]. apply (I1 i). now right.
      * intros i. split; [intros Hi; split; [apply (I1 i); now right|exact Hi]|tauto].
  - split; [|rewrite app_length; lia]. intros i. rewrite in_app_iff, I1, I2. tauto.
Qed.
Lemma count_is_all n : count_is n (fun _ => True) n.
Proof. exists (seq 0 n). split; [apply seq_NoDup|]. split; [|apply seq_length]. intros i. rewrite in_seq. intuition lia. Qed.
Lemma count_is_none n (P : nat -> Prop) : (forall i, i < n -> ~ P i) -> count_is n P 0.
Proof. intros H. exists []. split; [constructor|]. split; [|reflexivity]. intros i. split; [intros []|]. intros [Hi Hp]. exact (H i Hi Hp). Qed.
Lemma count_is_prefix n m : m <= n -> count_is n (fun i => i < m) m.
Proof. intros H. exists (seq 0 m). split; [apply seq_NoDup|]. split; [|apply seq_length]. intros i. rewrite in_seq. lia. Qed.

(* a set of rows closed downwards is an initial segment *)
Lemma count_is_down n (P : nat -> Prop) c : (forall i, P i \/ ~ P i) -> (forall i j, i <= j -> j < n -> P j -> P i) ->
  count_is n P c -> forall i, i < n -> (P i <-> i < c).
Proof.
  intros D H C.
  assert (X : exists m, m <= n /\ forall i, i < n -> (P i <-> i < m)).
  { clear C. induction n as [|n IH]; [exists 0; split; [lia|]; intros; lia|].
    destruct (IH ltac:(intros i j H1 H2; apply H; lia)) as [m [Hm Hx]].
    destruct (D n) as [Pn|Pn].
    - exists (S n). split; [lia|]. intros i Hi. split; [lia|]. intros _. apply (H i n); [lia|lia|exact Pn].
    - exists m. split; [lia|]. intros i Hi. destruct (Nat.eq_dec i n) as [->|]; [|apply Hx; lia].
      split; [contradiction|lia]. }
  destruct X as [m [Hm Hx]].
  assert (c = m).
  { apply (count_is_unique n P); [exact C|]. apply (count_is_ext n (fun i => i < m)); [|now apply count_is_prefix].
    intros i Hi. symmetry. now apply Hx. }
  subst. exact Hx.
Qed.

Lemma count_is_list n (time : arr Z) us cs : NoDup us ->
  Forall2 (fun u c => count_is n (fun i => time i = u) c) us cs ->
  count_is n (fun i => In (time i) us) (list_sum cs).
Proof.
  intros N H. induction H as [|u c us cs H1 H2 IH]; [apply count_is_none; intros i _ []|].
  inversion N as [|? ? N1 N2]; subst. cbn [list_sum fold_right].
  apply (count_is_ext n (fun i => time i = u \/ In (time i) us)).
  - intros i Hi. cbn. split; intros [E|E]; auto.
  - apply count_is_or; [|exact H1|now apply IH]. intros i _ <- C. contradiction.
Qed.

Lemma Forall2_firstn {A B} (R : A -> B -> Prop) l l' k : Forall2 R l l' -> Forall2 R (firstn k l) (firstn k l').
Proof. intros H. revert k. induction H; intros [|k]; cbn; constructor; auto. Qed.
Lemma Forall2_skipn {A B} (R : A -> B -> Prop) l l' k : Forall2 R l l' -> Forall2 R (skipn k l) (skipn k l').
Proof. intros H. revert k. induction H as [|x y l l' H H' IH]; intros [|k]; cbn; auto. Qed.
Lemma NoDup_firstn {A} (l : list A) k : NoDup l -> NoDup (firstn k l).
Proof. intros H. rewrite <- (firstn_skipn k l) in H. revert H. generalize (skipn k l). intros l2 H.
  induction (firstn k l) as [|x l1 IH]; [constructor|]. cbn in H. inversion H; subst. constructor; [rewrite in_app_iff in *; tauto|auto]. Qed.
Lemma NoDup_skipn {A} (l : list A) k : NoDup l -> NoDup (skipn k l).
Proof. revert k. induction l as [|x l IH]; intros [|k] H; cbn; auto. inversion H; auto. Qed.

Lemma cumsum_len acc l : length (cumsum_from acc l) = length l.
Proof. revert acc. induction l; intros; cbn; auto. Qed.
Lemma nth_cumsum l acc k : k < length l -> nth k (cumsum_from acc l) 0 = acc + list_sum (firstn (S k) l).
Proof.
  unfold list_sum. revert acc k. induction l as [|x l IH]; intros acc k H; [cbn in H; lia|]. cbn [cumsum_from length] in *.
  destruct k as [|k]; [cbn; lia|]. rewrite (firstn_cons (S k)). cbn [nth fold_right]. rewrite IH by lia. lia.
Qed.
Lemma removelast_len {A} (l : list A) : length (removelast l) = length l - 1.
Proof. induction l as [|x [|y l] IH]; [reflexivity|reflexivity|]. cbn [removelast length] in *. rewrite IH. lia. Qed.
Lemma nth_removelast {A} (l : list A) k d : S k < length l -> nth k (removelast l) d = nth k l d.
Proof.
  revert k. induction l as [|x [|y l] IH]; intros k H; [cbn in H; lia|cbn in H; lia|].
  cbn [removelast]. destruct k as [|k]; [reflexivity|]. cbn [nth]. apply IH. cbn [length] in *. lia.
Qed.

(* chunk_bounds *)
Lemma S_mono l a b : a <= b -> list_sum (firstn a l) <= list_sum (firstn b l).
Proof.
  revert a b. induction l as [|x l IH]; intros [|a] [|b] H; cbn [firstn]; try lia; try (cbn; lia).
  unfold list_sum in *. cbn [fold_right]. specialize (IH a b ltac:(lia)). lia.
Qed.
Lemma S_step l a : a < length l -> list_sum (firstn (S a) l) = list_sum (firstn a l) + nth a l 0.
Proof.
  unfold list_sum. revert a. induction l as [|x l IH]; intros a H; [cbn in H; lia|]. destruct a as [|a]; [cbn; lia|].
  rewrite (firstn_cons (S a)), (firstn_cons a). cbn [fold_right nth]. cbn [length] in H. rewrite IH by lia. lia.
Qed.
Lemma S_part l a m : list_sum (firstn (a + m) l) = list_sum (firstn a l) + list_sum (firstn m (skipn a l)).
Proof.
  unfold list_sum. revert a. induction l as [|x l IH]; intros a; [rewrite !firstn_nil, skipn_nil, firstn_nil; reflexivity|].
  destruct a as [|a]; [reflexivity|]. cbn [Nat.add firstn skipn fold_right]. rewrite IH. lia.
Qed.
Lemma nth_range_step n u k : 0 < u -> k < (n + u - 1) / u -> nth k (range_step n u) 0 = k * u.
Proof.
  intros Hu Hk. unfold range_step. rewrite (nth_indep _ 0 (0 * u)) by (rewrite map_length, seq_length; exact Hk).
  rewrite map_nth with (f := fun k => k * u), seq_nth by exact Hk. reflexivity.
Qed.
Lemma ceil_lt n u k : 0 < u -> (k < (n + u - 1) / u <-> k * u < n).
Proof.
  intros Hu. split; intros H.
  - assert (S k <= (n + u - 1) / u) by lia. apply (Nat.mul_le_mono_l _ _ u) in H0.
    pose proof (Nat.mul_div_le (n + u - 1) u ltac:(lia)). lia.
  - assert (S k <= (n + u - 1) / u); [|lia]. apply Nat.div_le_lower_bound; nia.
Qed.

Section Chunkify.
  Context (nrow : nat) (time : arr Z) (upc : nat) (Hu : 0 < upc).

  Theorem chunkify_rows_spec :
    exists chunks idx cnts us, chunkify_rows nrow time upc = Ok (chunks, idx, cnts) /\
      distinct_times nrow time us /\
      length idx = length us /\ length cnts = length us /\
      (forall k, k < length us ->
         count_is nrow (fun r => time r = nth k us 0%Z) (nth k cnts 0) /\
         count_is nrow (fun r => (time r < nth k us 0)%Z) (nth k idx 0)) /\
      (forall c, c < length chunks <-> c * upc < length us) /\
      (forall c, c < length chunks ->
         count_is nrow (fun r => exists k, c * upc <= k < S c * upc /\ k < length us /\ time r = nth k us 0%Z) (nth c chunks 0)) /\
      list_sum chunks = nrow /\
      ((forall r r', r <= r' -> r' < nrow -> (time r <= time r')%Z) ->
         forall k r, k < length us -> r < nrow ->
           (nth k idx 0 <= r < nth k idx 0 + nth k cnts 0 <-> time r = nth k us 0%Z)) /\
      (forall k, k <= length us -> list_sum (firstn k cnts) <= nrow) /\
      (forall k, k < length us -> nth k idx 0 = list_sum (firstn k cnts)) /\
      (forall c, c <= length chunks -> list_sum (firstn c chunks) = list_sum (firstn (c * upc) cnts)).
  Proof.
    unfold chunkify_rows. destruct (unique_internal Z.ltb zneqb nrow time) as [[[us ids] inv] cnts] eqn:EU.
    destruct (unique_internal_full Z.ltb zneqb Zltb_order zneqb_spec nrow _ _ _ _ _ EU) as (A1 & A2 & A3 & _ & _ & A6 & A7).
    destruct (Nat.eqb_spec upc 0); [lia|].
    set (chunks := map _ _). set (idx := match length us with O => [] | S _ => _ end).
    exists chunks, idx, cnts, us. split; [reflexivity|].
    assert (SS : StronglySorted Z.lt us).
    { clear -A1. induction A1 as [|x l S IH Fa]; constructor; [exact IH|]. rewrite Forall_forall in *. intros y Hy. apply Z.ltb_lt. auto. }
    assert (ND : NoDup us).
    { clear -SS. induction SS as [|x l S IH Fa]; constructor; [|exact IH]. intros C. rewrite Forall_forall in Fa. specialize (Fa x C). lia. }
    assert (DT : distinct_times nrow time us).
    { split; [exact SS|]. exact A2. }
    assert (F2 : Forall2 (fun u c => count_is nrow (fun i => time i = u) c) us cnts).
    { clear -A6 A7. revert cnts A6 A7. induction us as [|u us' IH]; intros [|c cs] Hl H; try (cbn in Hl; lia); [constructor|].
      constructor; [exact (H 0 u c eq_refl eq_refl)|]. apply IH; [cbn in Hl; lia|]. intros k. exact (H (S k)). }
    assert (Lidx : length idx = length us).
    { unfold idx. destruct (length us) eqn:El; [reflexivity|]. cbn [length]. rewrite removelast_len, cumsum_len, A6. lia. }
    assert (Nidx : forall k, k < length us -> nth k idx 0 = list_sum (firstn k cnts)).
    { intros k Hk. unfold idx. destruct (length us) eqn:El; [lia|]. destruct k as [|k]; [reflexivity|].
      cbn [nth]. rewrite nth_removelast by (rewrite cumsum_len; lia). rewrite nth_cumsum by lia. reflexivity. }
    assert (Lch : forall c, c < length chunks <-> c * upc < length us).
    { intros c. unfold chunks, range_step. rewrite !map_length, seq_length. now apply ceil_lt. }
    assert (Nch : forall c, c < length chunks -> nth c chunks 0 = list_sum (firstn upc (skipn (c * upc) cnts))).
    { intros c Hc. pose proof Hc as Hc'. unfold chunks in Hc |- *. unfold range_step in Hc. rewrite !map_length, seq_length in Hc.
      rewrite (nth_indep _ 0 (list_sum (firstn upc (skipn 0 cnts)))) by (rewrite map_length; unfold range_step; rewrite map_length, seq_length; exact Hc).
      rewrite map_nth with (f := fun i => list_sum (firstn upc (skipn i cnts))), nth_range_step by assumption. reflexivity. }
    assert (Lt : forall k i, k < length us -> i < nrow -> (In (time i) (firstn k us) <-> (time i < nth k us 0)%Z)).
    { intros k i Hk Hi. pose proof (A3 i Hi) as Hn. set (p := inv i) in *.
      assert (Hp : p < length us) by (apply nth_error_Some; rewrite Hn; discriminate).
      apply nth_error_nth with (d := 0%Z) in Hn. rewrite <- Hn.
      assert (Mono : forall a b, a < b -> b < length us -> (nth a us 0 < nth b us 0)%Z).
      { clear -SS. induction SS as [|x l S IH Fa]; intros a b H1 H2; [cbn in H2; lia|].
        destruct b as [|b]; [lia|]. cbn [length] in H2. destruct a as [|a]; cbn [nth].
        - rewrite Forall_forall in Fa. apply Fa. apply nth_In. lia.
        - apply IH; lia. }
      split.
      - intros C. apply In_nth with (d := 0%Z) in C. destruct C as [q [Hq Eq]]. rewrite firstn_length in Hq.
        assert (q < k) by lia.
        rewrite <- Eq. rewrite <- (firstn_skipn k us) at 2. rewrite app_nth2; rewrite firstn_length; [|lia].
        replace (nth q (firstn k us) 0%Z) with (nth q us 0%Z).
        + rewrite <- (firstn_skipn k us) at 1. rewrite (app_nth1 _ _ _) by (rewrite firstn_length; lia).
          replace (nth (k - Nat.min k (length us)) (skipn k us) 0%Z) with (nth k us 0%Z).
          * rewrite <- (Nat.sub_0_r k) at 2. pose proof (Mono q k H Hk) as M.
            rewrite <- (firstn_skipn k us) in M at 1. rewrite app_nth1 in M by (rewrite firstn_length; lia). now rewrite Nat.sub_0_r.
          * rewrite <- (firstn_skipn k us) at 1. rewrite app_nth2 by (rewrite firstn_length; lia). rewrite firstn_length. reflexivity.
        + rewrite <- (firstn_skipn k us) at 1. rewrite app_nth1 by (rewrite firstn_length; lia). reflexivity.
      - intros C. destruct (Nat.lt_ge_cases p k) as [Hpk|Hpk].
        + assert (E : nth p us 0%Z = nth p (firstn k us) 0%Z).
          { rewrite <- (firstn_skipn k us) at 1. rewrite app_nth1 by (rewrite firstn_length; lia). reflexivity. }
          rewrite E. apply nth_In. rewrite firstn_length. lia.
        + exfalso. destruct (Nat.eq_dec p k) as [->|Ne]; [lia|]. specialize (Mono k p ltac:(lia) Hp). lia. }
    assert (CK : forall k, k < length us ->
         count_is nrow (fun r => time r = nth k us 0%Z) (nth k cnts 0) /\
         count_is nrow (fun r => (time r < nth k us 0)%Z) (nth k idx 0)).
    { intros k Hk. split.
      - apply (A7 k); apply nth_error_nth'; lia.
      - rewrite Nidx by exact Hk. apply (count_is_ext nrow (fun i => In (time i) (firstn k us))).
        + intros i Hi. now apply Lt.
        + apply count_is_list; [now apply NoDup_firstn|now apply Forall2_firstn]. }
    assert (Ctot : list_sum cnts = nrow).
    { apply (count_is_unique nrow (fun i => In (time i) us)); [now apply count_is_list|].
      apply (count_is_ext nrow (fun _ => True)); [|apply count_is_all]. intros i Hi. split; [intros _|trivial].
      apply A2. exists i. auto. }
    assert (Coff : forall c, c <= length chunks -> list_sum (firstn c chunks) = list_sum (firstn (c * upc) cnts)).
    { induction c as [|c IH]; intros Hc; [reflexivity|]. rewrite S_step, IH, Nch by lia.
      replace (S c * upc) with (c * upc + upc) by lia. now rewrite S_part. }
    split; [exact DT|]. split; [exact Lidx|]. split; [exact A6|]. split; [exact CK|]. split; [exact Lch|].
    split; [|split; [|split; [|split; [|split]]]].
    - intros c Hc. rewrite Nch by exact Hc.
      apply (count_is_ext nrow (fun i => In (time i) (firstn upc (skipn (c * upc) us)))).
      + intros i Hi. split.
        * intros C. apply In_nth with (d := 0%Z) in C. destruct C as [q [Hq Eq]]. rewrite firstn_length, skipn_length in Hq.
          exists (c * upc + q). split; [lia|]. split; [lia|].
          rewrite <- Eq.
          rewrite <- (firstn_skipn (c * upc) us) at 2. rewrite app_nth2 by (rewrite firstn_length; lia).
          rewrite firstn_length. replace (c * upc + q - Nat.min (c * upc) (length us)) with q by lia.
          rewrite <- (firstn_skipn upc (skipn (c * upc) us)) at 2. rewrite app_nth1 by (rewrite firstn_length, skipn_length; lia). reflexivity.
        * intros [k [Hk [Hk2 ->]]].
          replace (nth k us 0%Z) with (nth (k - c * upc) (firstn upc (skipn (c * upc) us)) 0%Z).
          { apply nth_In. rewrite firstn_length, skipn_length. lia. }
          rewrite <- (firstn_skipn (c * upc) us) at 2. rewrite app_nth2 by (rewrite firstn_length; lia).
          rewrite firstn_length. replace (k - Nat.min (c * upc) (length us)) with (k - c * upc) by lia.
          rewrite <- (firstn_skipn upc (skipn (c * upc) us)) at 2. rewrite app_nth1 by (rewrite firstn_length, skipn_length; lia). reflexivity.
      + apply count_is_list; [apply NoDup_firstn; now apply NoDup_skipn|apply Forall2_firstn; now apply Forall2_skipn].
    - pose proof (Coff (length chunks) ltac:(lia)) as X. rewrite firstn_all in X. rewrite X, firstn_all2; [exact Ctot|].
      rewrite A6. pose proof (Lch (length chunks)) as [_ H]. destruct (Nat.le_gt_cases (length us) (length chunks * upc)); [assumption|]. specialize (H H0). lia.
    - intros Hs k r Hk Hr. destruct (CK k Hk) as [C1 C2].
      assert (C3 : count_is nrow (fun r => (time r <= nth k us 0)%Z) (nth k idx 0 + nth k cnts 0)).
      { apply (count_is_ext nrow (fun r => (time r < nth k us 0)%Z \/ time r = nth k us 0%Z)); [intros; lia|].
        apply count_is_or; [intros; lia|exact C2|exact C1]. }
      pose proof (count_is_down nrow (fun r => (time r < nth k us 0)%Z) _ ltac:(intros; cbv beta; lia) ltac:(intros i j H1 H2 H3; specialize (Hs i j H1 H2); cbv beta in *; lia) C2 r Hr).
      pose proof (count_is_down nrow (fun r => (time r <= nth k us 0)%Z) _ ltac:(intros; cbv beta; lia) ltac:(intros i j H1 H2 H3; specialize (Hs i j H1 H2); cbv beta in *; lia) C3 r Hr).
      cbn beta in *. lia.
    - intros k Hk. rewrite <- Ctot. rewrite <- (firstn_all cnts) at 2. apply S_mono. lia.
    - exact Nidx.
    - exact Coff.
  Qed.

  (* its chunks, with upc times in each, are aligned chunks of the table it describes *)
  Theorem chunkify_aligned chunks idx cnts : chunkify_rows nrow time upc = Ok (chunks, idx, cnts) ->
    bins_disjoint (length idx) (fun t => Z.of_nat (nth t idx 0)) 0 (fun t => nth t cnts 0) /\
    (0 < nrow -> 0 < length idx /\ is_min (length idx) (fun t => Z.of_nat (nth t idx 0)) 0%Z) /\
    (forall r, r < nrow -> exists t, t < length idx /\ in_bin (fun t => Z.of_nat (nth t idx 0)) 0 (fun t => nth t cnts 0) t r) /\
    forall c, c < length chunks ->
      aligned (length idx) (fun t => Z.of_nat (nth t idx 0)) 0 (fun t => nth t cnts 0)
              (c * upc) (Nat.min upc (length idx - c * upc)) (list_sum (firstn c chunks)) (nth c chunks 0).
  Proof.
    intros E. destruct chunkify_rows_spec as (ch' & idx' & cnts' & us & E' & (SS & DT) & L1 & L2 & CK & Lch & _ & Ctot & _ & _ & Nidx & Coff).
    rewrite E in E'. assert (ch' = chunks /\ idx' = idx /\ cnts' = cnts) as (-> & -> & ->) by (injection E'; auto). clear E'.
    assert (B : forall t r, t < length idx -> (in_bin (fun t => Z.of_nat (nth t idx 0)) 0 (fun t => nth t cnts 0) t r <->
                  list_sum (firstn t cnts) <= r < list_sum (firstn (S t) cnts))).
    { intros t r Ht. unfold in_bin. rewrite S_step, Nidx by lia. lia. }
    split; [|split; [|split]].
    - intros t t' r H1 H2 H3 H4. apply B in H3, H4; try assumption.
      destruct (lt_eq_lt_dec t t') as [[H|H]|H]; [|exact H|].
      + pose proof (S_mono cnts (S t) t' ltac:(lia)). lia.
      + pose proof (S_mono cnts (S t') t ltac:(lia)). lia.
    - intros Hn. assert (0 < length idx).
      { rewrite L1. assert (I : In (time 0) us) by (apply DT; exists 0; auto). destruct us; [destruct I|cbn; lia]. }
      split; [assumption|]. split; [|intros; lia]. exists 0. split; [assumption|]. rewrite Nidx by lia. reflexivity.
    - intros r Hr. assert (X : forall m, m <= length idx -> r < list_sum (firstn m cnts) ->
         exists t, t < length idx /\ list_sum (firstn t cnts) <= r < list_sum (firstn (S t) cnts)).
      { induction m as [|m IH]; [cbn; lia|]. intros Hm H. destruct (Nat.lt_ge_cases r (list_sum (firstn m cnts))).
        - apply IH; [lia|assumption].
        - exists m. split; [lia|]. lia. }
      destruct (X (length idx) (Nat.le_refl _)) as [t [Ht Hb]].
      { rewrite <- Ctot in Hr. pose proof (Coff (length chunks) ltac:(lia)) as Y. rewrite firstn_all in Y. rewrite Y in Hr.
        rewrite L1, <- L2, firstn_all. rewrite firstn_all2 in Hr; [exact Hr|].
        rewrite L2. pose proof (Lch (length chunks)) as [_ H]. destruct (Nat.le_gt_cases (length us) (length chunks * upc)); [assumption|]. specialize (H H0). lia. }
      exists t. split; [exact Ht|]. now apply B.
    - intros c Hc. pose proof (proj1 (Lch c) Hc) as Hcu. rewrite Coff by lia.
      assert (En : nth c chunks 0 = list_sum (firstn (S c * upc) cnts) - list_sum (firstn (c * upc) cnts)).
      { pose proof (S_step chunks c Hc) as X. rewrite !Coff in X by lia. lia. }
      assert (Em : list_sum (firstn (S c * upc) cnts) = list_sum (firstn (c * upc + Nat.min upc (length idx - c * upc)) cnts)).
      { destruct (Nat.le_gt_cases (S c * upc) (length idx)).
        - f_equal. f_equal. lia.
        - rewrite !firstn_all2 by lia. reflexivity. }
      pose proof (S_mono cnts (c * upc) (S c * upc) ltac:(lia)) as M0.
      constructor.
      + lia.
      + lia.
      + split.
        * exists 0. split; [lia|]. rewrite Nidx by lia. rewrite Nat.add_0_r. lia.
        * intros t Ht. rewrite Nidx by lia. pose proof (S_mono cnts (c * upc) (c * upc + t) ltac:(lia)). lia.
      + intros t r Ht Hb. apply B in Hb; [|lia]. pose proof (S_mono cnts (c * upc) (c * upc + t) ltac:(lia)).
        pose proof (S_mono cnts (S (c * upc + t)) (c * upc + Nat.min upc (length idx - c * upc)) ltac:(lia)). lia.
      + intros t r Ht Hb Hr. apply B in Hb; [|lia].
        destruct (Nat.lt_ge_cases t (c * upc)).
        { pose proof (S_mono cnts (S t) (c * upc) ltac:(lia)). lia. }
        destruct (Nat.lt_ge_cases t (c * upc + Nat.min upc (length idx - c * upc))); [lia|].
        pose proof (S_mono cnts (c * upc + Nat.min upc (length idx - c * upc)) t ltac:(lia)). lia.
  Qed.
End Chunkify.

(* ---------- check_type ---------- *)
Theorem check_type_spec jn vn vt :
  match vt with
  | VT_vis => (check_type jn vn vt = Ok DIAG_DIAG <-> vn = 3 /\ jn = 5) /\
              (check_type jn vn vt = Ok DIAG <-> vn = 4 /\ jn = 5) /\
              (check_type jn vn vt = Ok FULL <-> vn = 4 /\ jn = 6) /\
              (check_type jn vn vt = Raise RuntimeError <-> ~ (vn = 3 /\ jn = 5) /\ ~ (vn = 4 /\ (jn = 5 \/ jn = 6)))
  | VT_model => (check_type jn vn vt = Ok DIAG_DIAG <-> vn = 4 /\ jn = 5) /\
              (check_type jn vn vt = Ok DIAG <-> vn = 5 /\ jn = 5) /\
              (check_type jn vn vt = Ok FULL <-> vn = 5 /\ jn = 6) /\
              (check_type jn vn vt = Raise RuntimeError <-> ~ (vn = 4 /\ jn = 5) /\ ~ (vn = 5 /\ (jn = 5 \/ jn = 6)))
  | VT_other => check_type jn vn vt = Raise ValueError
  end.
Proof.
  destruct vt; [| |reflexivity]; unfold check_type; cbn [bind];
  repeat (match goal with |- context [Nat.eqb ?a ?b] => destruct (Nat.eqb_spec a b) end; cbn [negb]);
  repeat split; intros; try congruence; try lia.
Qed.

Theorem chunkify_rows_main nrow time upc : 0 < upc ->
  exists chunks idx cnts us, chunkify_rows nrow time upc = Ok (chunks, idx, cnts) /\
    distinct_times nrow time us /\
    length idx = length us /\ length cnts = length us /\
    (forall k, k < length us ->
       count_is nrow (fun r => time r = nth k us 0%Z) (nth k cnts 0) /\
       count_is nrow (fun r => (time r < nth k us 0)%Z) (nth k idx 0)) /\
    (forall c, c < length chunks <-> c * upc < length us) /\
    (forall c, c < length chunks ->
       count_is nrow (fun r => exists k, c * upc <= k < S c * upc /\ k < length us /\ time r = nth k us 0%Z) (nth c chunks 0)) /\
    list_sum chunks = nrow /\
    ((forall r r', r <= r' -> r' < nrow -> (time r <= time r')%Z) ->
       forall k r, k < length us -> r < nrow ->
         (nth k idx 0 <= r < nth k idx 0 + nth k cnts 0 <-> time r = nth k us 0%Z)).
Proof.
  intros Hu. destruct (chunkify_rows_spec nrow time upc Hu) as (a & b & c & d & H1 & H2 & H3 & H4 & H5 & H6 & H7 & H8 & H9 & _).
  exists a, b, c, d. repeat (split; [assumption|]). assumption.
Qed.
Lemma chunkify_zero nrow time : chunkify_rows nrow time 0 = Raise ValueError.
Proof. unfold chunkify_rows. destruct (unique_internal _ _ _ _) as [[[? ?] ?] ?]. reflexivity. Qed.

Section Again.
  Context {F : fops} (L : flaws F).
  (* the call rebases time_bin_indices in place: calling again with the new array gives the same result *)
  Theorem corrupt_again n tbi tbc ant1 ant2 (g : gain_arr F) (m : model_arr F) mode tmin tbi' v :
    check_type (j_ndim g) (m_ndim m) VT_model = Ok mode ->
    0 < n -> is_min n tbi tmin -> bins_disjoint n tbi tmin tbc ->
    corrupt_vis n tbi tbc ant1 ant2 g m = Ok (tbi', v) ->
    exists tbi'' v', corrupt_vis n tbi' tbc ant1 ant2 g m = Ok (tbi'', v') /\ (forall t, tbi'' t = tbi' t) /\
      forall r f, f < m_chan m -> jeq (mode_full mode) (m_corr m) (v_at v' r f) (v_at v r f).
  Proof.
    intros Hc Hn Hm Hd E.
    destruct (corrupt_vis_spec L n tbi tbc ant1 ant2 g m mode tmin Hc Hn Hm Hd) as (tbi1 & v1 & E1 & Et & _ & _ & _ & _ & V5).
    rewrite E in E1. apply (f_equal (fun x => match x with Ok y => y | Raise _ => (tbi', v) end)) in E1. cbn in E1.
    apply pair_equal_spec in E1. destruct E1 as [<- <-].
    assert (Hm' : is_min n tbi' 0%Z).
    { destruct Hm as [[r [Hr Er]] Hm]. split; [exists r; split; [exact Hr|]; rewrite Et; lia|].
      intros t Htt. rewrite Et. specialize (Hm t Htt). lia. }
    assert (Hb : forall t r, in_bin tbi' 0 tbc t r <-> in_bin tbi tmin tbc t r).
    { intros t r. unfold in_bin. rewrite Et. lia. }
    assert (Hd' : bins_disjoint n tbi' 0%Z tbc).
    { intros t t' r H1 H2 H3 H4. apply (Hd t t' r); try assumption; now apply Hb. }
    destruct (corrupt_vis_spec L n tbi' tbc ant1 ant2 g m mode 0%Z Hc Hn Hm' Hd') as (tbi2 & v2 & E2 & Et2 & _ & _ & _ & _ & W5).
    exists tbi2, v2. split; [exact E2|]. split; [intros t; rewrite Et2; lia|]. intros r f Hf.
    destruct (V5 r f Hf) as [V6 V7]. destruct (W5 r f Hf) as [W6 W7].
    destruct (bin_dec n tbi tmin tbc r) as [[t [Ht B]]|Hnone].
    - eapply jeq_trans; [exact (W6 t Ht (proj2 (Hb t r) B))|]. apply jeq_sym. exact (V6 t Ht B).
    - eapply jeq_trans; [|apply jeq_sym; exact (V7 Hnone)]. apply W7. intros t Ht C. apply Hb in C. exact (Hnone t Ht C).
  Qed.
End Again.

(* several chunks over antennas or directions are refused *)
Lemma several_chunked l n : in_several l n -> chunked_axis l n = true.
Proof.
  intros (S & L & P). unfold chunked_axis. destruct l as [|a [|b l]]; cbn [length] in L; try lia. cbn [hd].
  inversion P as [|? ? Pa P']; subst. inversion P' as [|? ? Pb _]; subst. cbn [list_sum fold_right] in *. destruct (Nat.eqb_spec a (a + (b + fold_right Nat.add 0 l))); [lia|reflexivity].
Qed.
Lemma dask_several {F : fops} ch nant tbi tbc ant1 ant2 (g : gain_arr F) (m : model_arr F) (v : vis_arr F) flag :
  (in_several (cc_jant ch) nant \/ in_several (cc_jdir ch) (j_dir g) ->
     dask_correct_vis ch nant tbi tbc ant1 ant2 g v flag = Raise ValueError) /\
  (in_several (cc_jant ch) nant \/ in_several (cc_jdir ch) (j_dir g) \/ in_several (cc_mdir ch) (m_dir m) ->
     dask_residual_vis ch nant tbi tbc ant1 ant2 g v flag m = Raise ValueError /\
     forall mode, check_type (j_ndim g) (m_ndim m) VT_model = Ok mode -> dask_corrupt_vis ch nant tbi tbc ant1 ant2 g m = Raise ValueError).
Proof.
  unfold dask_correct_vis, dask_residual_vis, dask_corrupt_vis. split.
  - intros [A|A]; rewrite (several_chunked _ _ A); [reflexivity|]. destruct (chunked_axis _ _); reflexivity.
  - intros [A|[A|A]]; rewrite (several_chunked _ _ A); (split; [|intros mode ->; cbn [bind]]); repeat (destruct (chunked_axis _ _); [reflexivity|]); reflexivity.
Qed.
