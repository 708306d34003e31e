From Coq Require Import Reals Lra Ring.
From Verif Require Import Prelude PreludeFacts LoopFacts CRing CField CplxR CplxF NumpyModel AvgModel AvgSpec PredictModel PredictSpec PredictProofs CalModel CalSpec CalProofs CalProofs2
  RimeModel RimeSpec Cal2Model Cal2Spec.
Open Scope nat_scope.

(* ---------- C42 ---------- *)
Lemma source_vis_spec image uvw freq lm t r f s i j :
  source_vis (i_at image t f s) (lm t s 0) (lm t s 1) (uvw r 0) (uvw r 1) (uvw r 2) (freq f) i j = predicted image uvw freq lm t r f s i j.
Proof.
  unfold source_vis, predicted, n1, delay, minus_two_pi_over_c, two_pi_over_c, lightspeed, light, n1. cbv zeta.
  set (l := lm t s 0). set (m := lm t s 1).
  replace (1 - l ^ 2 - m ^ 2)%R with (1 - l * l - m * m)%R by ring. set (q := sqrt (1 - l * l - m * m)).
  replace (q - 1 + 1)%R with q by ring. f_equal. f_equal. f_equal. field.
Qed.
Lemma cac_mul_corrupt mode n nd a m b uvw freq lm o :
  cac_mul mode n nd a m b uvw freq lm o =
  corrupt_mul mode n nd a (fun s => source_vis (m s) (lm s 0) (lm s 1) (uvw 0) (uvw 1) (uvw 2) freq) b o.
Proof. reflexivity. Qed.

Lemma jsum_gs_ext mode n nd (a b : nat -> jones RCF) (m m' : nat -> jones RCF) i j : corr_ok (mode_full mode) n i j ->
  (forall s, s < nd -> forall i j, m s i j = m' s i j) ->
  jsum nd (fun s => gsandwich mode (a s) (m s) (b s)) i j = jsum nd (fun s => gsandwich mode (a s) (m' s) (b s)) i j.
Proof.
  intros C H. unfold jsum. apply csum_ext. intros s Hs. destruct mode; unfold gsandwich, sandwich, jprod; cbn [csum]; rewrite ?(H s Hs); reflexivity.
Qed.

Theorem cac_spec n nrow tbi tbc ant1 ant2 (g : gain_arr RCF) (m : image_arr) uvw freq lm mode tmin :
  check_type (j_ndim g) (i_ndim m) VT_model = Ok mode ->
  0 < n -> is_min n tbi tmin -> bins_disjoint n tbi tmin tbc ->
  exists tbi' out, compute_and_corrupt_vis n nrow (i_chan m) tbi tbc ant1 ant2 g m uvw freq lm = Ok (tbi', out) /\
    (forall t, tbi' t = (tbi t - tmin)%Z) /\
    v_ndim out = mode_ndim mode /\ v_row out = nrow /\ v_chan out = i_chan m /\ v_corr out = i_corr m /\
    forall r f, f < i_chan m ->
      (forall t, t < n -> in_bin tbi tmin tbc t r ->
         jeq (mode_full mode) (i_corr m) (v_at out r f)
           (jsum (i_dir m) (fun s => gsandwich mode (j_at g t (ant1 r) f s) (predicted m uvw freq lm t r f s) (j_at g t (ant2 r) f s)))) /\
      ((forall t, t < n -> ~ in_bin tbi tmin tbc t r) ->
         jeq (mode_full mode) (i_corr m) (v_at out r f) jzero).
Proof.
  intros Hc Hn Hm Hd. unfold compute_and_corrupt_vis. rewrite Hc. cbn [bind].
  destruct (Nat.eqb_spec n 0); [lia|].
  assert (Ez : zmin n tbi = tmin) by (apply (is_min_unique n tbi); [now apply zmin_is_min|exact Hm]).
  rewrite Ez. do 2 eexists. split; [reflexivity|]. split; [reflexivity|].
  cbn [v_ndim v_row v_chan v_corr v_at].
  split; [rewrite (mode_of_model _ _ _ Hc); lia|]. do 3 (split; [reflexivity|]).
  intros r f Hf. match goal with |- context [bins_loop _ _ _ _ ?b ?z] => destruct (bins_spec n (i_chan m) tbi tmin tbc b z r f Hm Hd) as [H1 H2] end. split.
  - intros t Ht Hb i j C. rewrite (H1 t Ht Hb Hf), cac_mul_corrupt, (corrupt_mul_spec RCF_laws) by exact C.
    rewrite (Radd_0_l (law_ring RCF RC_laws)). apply (jsum_gs_ext mode (i_corr m)); [exact C|]. intros s Hs i' j'. apply source_vis_spec.
  - intros Hn' i j C. rewrite (H2 Hn'). reflexivity.
Qed.
(* the same as corrupting the predicted visibilities *)
Theorem cac_corrupt n nrow tbi tbc ant1 ant2 (g : gain_arr RCF) (m : image_arr) uvw freq lm (pm : model_arr RCF) mode tmin :
  check_type (j_ndim g) (i_ndim m) VT_model = Ok mode ->
  0 < n -> is_min n tbi tmin -> bins_disjoint n tbi tmin tbc ->
  m_ndim pm = i_ndim m -> m_row pm = nrow -> m_chan pm = i_chan m -> m_dir pm = i_dir m -> m_corr pm = i_corr m ->
  (forall t r f s i j, t < n -> in_bin tbi tmin tbc t r -> f < i_chan m -> s < i_dir m -> m_at pm r f s i j = predicted m uvw freq lm t r f s i j) ->
  exists tbi' out out', compute_and_corrupt_vis n nrow (i_chan m) tbi tbc ant1 ant2 g m uvw freq lm = Ok (tbi', out) /\
    corrupt_vis n tbi tbc ant1 ant2 g pm = Ok (tbi', out') /\
    v_ndim out = v_ndim out' /\ v_row out = v_row out' /\ v_chan out = v_chan out' /\ v_corr out = v_corr out' /\
    forall r f, f < i_chan m -> jeq (mode_full mode) (i_corr m) (v_at out r f) (v_at out' r f).
Proof.
  intros Hc Hn Hm Hd E1 E2 E3 E4 E5 HP.
  destruct (cac_spec n nrow tbi tbc ant1 ant2 g m uvw freq lm mode tmin Hc Hn Hm Hd) as (tbi' & out & E & T & D & R & C & K & V).
  assert (Hc' : check_type (j_ndim g) (m_ndim pm) VT_model = Ok mode) by now rewrite E1.
  destruct (corrupt_vis_spec RCF_laws n tbi tbc ant1 ant2 g pm mode tmin Hc' Hn Hm Hd) as (tbi2 & out2 & E' & T' & D' & R' & C' & K' & V').
  assert (ET : tbi2 = tbi').
  { unfold compute_and_corrupt_vis in E. rewrite Hc in E. cbn [bind] in E. destruct (Nat.eqb n 0); [discriminate|]. injection E as E _.
    unfold corrupt_vis in E'. rewrite Hc' in E'. cbn [bind] in E'. destruct (Nat.eqb n 0); [discriminate|]. injection E' as E' _. now rewrite <- E, <- E'. }
  subst tbi2. exists tbi', out, out2. split; [exact E|]. split; [exact E'|].
  split; [congruence|]. split; [congruence|]. split; [congruence|]. split; [congruence|].
  intros r f Hf. assert (Hf' : f < m_chan pm) by lia. destruct (V r f Hf) as [V1 V2]. destruct (V' r f Hf') as [W1 W2]. rewrite E5 in W1, W2.
  destruct (bin_dec n tbi tmin tbc r) as [[t [Ht Hb]]|N].
  - eapply jeq_trans; [exact (V1 t Ht Hb)|]. apply jeq_sym. eapply jeq_trans; [exact (W1 t Ht Hb)|].
    intros i j Cij. unfold corrupted. rewrite E4. apply (jsum_gs_ext mode (i_corr m)); [exact Cij|]. intros s Hs i' j'. apply (HP t r f s i' j'); auto.
  - eapply jeq_trans; [exact (V2 N)|]. apply jeq_sym. exact (W2 N).
Qed.

(* ---------- chunks ---------- *)
Theorem dask_cac n nrow tbi tbc ant1 ant2 (g : gain_arr RCF) (m : image_arr) uvw freq lm mode tmin ch nant ul ld ll :
  check_type (j_ndim g) (i_ndim m) VT_model = Ok mode ->
  0 < n -> is_min n tbi tmin -> bins_disjoint n tbi tmin tbc ->
  hd 0 (cc_jant ch) = nant -> hd 0 (cc_jdir ch) = j_dir g -> hd 0 (cc_mdir ch) = i_dir m ->
  hd 0 ul = 3 -> hd 0 ld = i_dir m -> hd 0 ll = 2 ->
  list_sum (cc_chan ch) = i_chan m ->
  exists tbi' whole blocks, compute_and_corrupt_vis n nrow (i_chan m) tbi tbc ant1 ant2 g m uvw freq lm = Ok (tbi', whole) /\
    dask_compute_and_corrupt ch nant ul ld ll tbi tbc ant1 ant2 g m uvw freq lm = Ok blocks /\
    forall rb, chunk_aligned n tbi tmin tbc ch rb -> forall cb, exists btbi b, blocks rb cb = Ok (btbi, b) /\
      v_row b = nth rb (cc_row ch) 0 /\ v_chan b = nth cb (cc_chan ch) 0 /\ v_ndim b = v_ndim whole /\ v_corr b = v_corr whole /\
      forall r f, r < nth rb (cc_row ch) 0 -> f < nth cb (cc_chan ch) 0 ->
        jeq (mode_full mode) (i_corr m) (v_at b r f) (v_at whole (off (cc_row ch) rb + r) (off (cc_chan ch) cb + f)).
Proof.
  intros Hc Hn Hm Hd Ha Hj Hi Hu Hl Hl2 Hch.
  destruct (cac_spec n nrow tbi tbc ant1 ant2 g m uvw freq lm mode tmin Hc Hn Hm Hd) as (tbi' & whole & E & T & D & R & C & K & V).
  exists tbi', whole. unfold dask_compute_and_corrupt, chunked_axis. rewrite Ha, Hj, Hi, Hu, Hl, Hl2, !Nat.eqb_refl, Hc. cbn [negb bind].
  eexists. split; [exact E|]. split; [reflexivity|]. intros rb A cb. unfold chunk_aligned in A.
  pose proof (al_pos _ _ _ _ _ _ _ _ A) as P. pose proof (al_min _ _ _ _ _ _ _ _ A) as Mn. pose proof (al_tim _ _ _ _ _ _ _ _ A) as Tm.
  destruct (cac_spec (nth rb (cc_time ch) 0) (nth rb (cc_row ch) 0) (shift (off (cc_time ch) rb) tbi) (shift (off (cc_time ch) rb) tbc)
    (shift (off (cc_row ch) rb) ant1) (shift (off (cc_row ch) rb) ant2) (blk_gain ch rb cb g) (blk_image ch rb cb m)
    (shift (off (cc_row ch) rb) uvw) (shift (off (cc_chan ch) cb) freq) (shift (off (cc_time ch) rb) lm) mode (tmin + Z.of_nat (off (cc_row ch) rb))%Z
    Hc P Mn (blk_disjoint n tbi tmin tbc _ _ _ _ A Hd)) as (btbi & b & Eb & Tb & Db & Rb & Cb & Kb & Vb).
  exists btbi, b. split; [exact Eb|]. split; [exact Rb|]. split; [exact Cb|]. split; [congruence|]. split; [rewrite Kb; symmetry; exact K|].
  intros r f Hr Hf. assert (Hf' : off (cc_chan ch) cb + f < i_chan m) by (rewrite <- Hch; now apply off_nth_le).
  destruct (V (off (cc_row ch) rb + r) (off (cc_chan ch) cb + f) Hf') as [V1 V2].
  destruct (Vb r f Hf) as [B1 B2].
  destruct (bin_dec (nth rb (cc_time ch) 0) (shift (off (cc_time ch) rb) tbi) (tmin + Z.of_nat (off (cc_row ch) rb))%Z (shift (off (cc_time ch) rb) tbc) r) as [[t [Ht Hb]]|N].
  - eapply jeq_trans; [exact (B1 t Ht Hb)|]. apply blk_in_bin in Hb. apply jeq_sym. eapply jeq_trans; [apply (V1 (off (cc_time ch) rb + t)); [lia|exact Hb]|].
    intros i j _. cbn [blk_image blk_gain i_dir j_at i_at]. rewrite Hi. reflexivity.
  - eapply jeq_trans; [exact (B2 N)|]. apply jeq_sym. apply V2. apply (blk_none n tbi tmin tbc _ _ _ _ A r Hr N).
Qed.
Theorem dask_cac_checks tbi tbc ant1 ant2 (g : gain_arr RCF) (m : image_arr) uvw freq lm ch nant ul ld ll :
  hd 0 (cc_jant ch) <> nant \/ hd 0 (cc_jdir ch) <> j_dir g \/ hd 0 (cc_mdir ch) <> i_dir m \/ hd 0 ul <> 3 \/ hd 0 ld <> i_dir m \/ hd 0 ll <> 2 ->
  dask_compute_and_corrupt ch nant ul ld ll tbi tbc ant1 ant2 g m uvw freq lm = Raise ValueError.
Proof.
  intros H. unfold dask_compute_and_corrupt, chunked_axis.
  repeat match goal with |- context [Nat.eqb ?a ?b] => destruct (Nat.eqb_spec a b); cbn [negb]; auto end. intuition congruence.
Qed.
