From Coq Require Import Reals Lra String.
From Verif Require Import Prelude CRing CField CplxR CplxF NumpyModel AvgModel PredictModel PredictSpec PredictProofs CalModel CalSpec CalProofs CalProofs2
  RimeModel RimeSpec RimeProofs DftModel DftSpec DftProofs SrcModel SrcSpec SrcProofs SrcProofs2 SrcProofs3 Cal2Model Cal2Spec Cal2Proofs Cal2Proofs2 Cal2Proofs3 RouteSpec.
Open Scope nat_scope.

Lemma some_min : forall n (time : arr Z), 0 < n -> exists m, is_min n time m.
Proof.
  intros n time. induction n as [|n IH]; [lia|]. intros _. destruct n as [|n].
  - exists (time 0). split; [exists 0; split; [lia|reflexivity]|]. intros r R. replace r with 0 by lia. lia.
  - destruct IH as (m & (r & R & E) & M); [lia|]. destruct (Z_le_gt_dec m (time (S n))).
    + exists m. split; [exists r; split; [lia|exact E]|]. intros q Q. destruct (Nat.eq_dec q (S n)) as [->|]; [assumption|apply M; lia].
    + exists (time (S n)). split; [exists (S n); split; [lia|reflexivity]|]. intros q Q.
      destruct (Nat.eq_dec q (S n)) as [->|]; [lia|]. assert (m <= time q)%Z by (apply M; lia). lia.
Qed.

Section Generic.
  Context {K : cops} (L : claws K).
  Add Ring Kring : (law_ring K L).
  Open Scope K_scope.
  Lemma sources_only_value : forall full nsrc nrow nchan ncorr time a1 a2 X, 0 < nrow ->
    exists out, predict_vis (sources_only nrow time a1 a2 (coherencies full nsrc nrow nchan ncorr X)) = Ok out /\
      v_row out = nrow /\ v_chan out = nchan /\ v_corr out = ncorr /\
      forall r f, r < nrow -> f < nchan -> jeq full ncorr (v_at out r f) (jsum (K := K) nsrc (fun s => X s r f)).
  Proof.
    intros full nsrc nrow nchan ncorr time a1 a2 X N.
    destruct (predict_vis_spec L full nsrc nchan ncorr (sources_only nrow time a1 a2 (coherencies full nsrc nrow nchan ncorr X))) as (out & E & _ & R & C & P & V).
    - split; cbn; try discriminate. intros x [= <-]. cbn. repeat split.
    - split; reflexivity.
    - split; reflexivity.
    - right; left; discriminate.
    - exact N.
    - exists out. repeat (split; [assumption|]). intros r f Hr Hf i j IJ.
      destruct (some_min nrow time N) as (m & M). rewrite (V m M r f Hr Hf i j IJ). unfold measurement, source_term, jadd, jzero. cbn. unfold jsum.
      ring.
  Qed.
  Lemma sources_seen_value : forall full nsrc nrow nchan ncorr time a1 a2 E X t0, 0 < nrow -> is_min nrow time t0 ->
    exists out, predict_vis (sources_seen nrow time a1 a2 (dde_terms full nsrc nchan ncorr E) (coherencies full nsrc nrow nchan ncorr X)) = Ok out /\
      v_row out = nrow /\ v_chan out = nchan /\ v_corr out = ncorr /\
      forall r f, r < nrow -> f < nchan -> jeq full ncorr (v_at out r f)
        (jsum (K := K) nsrc (fun s => sandwich full (E s (Z.to_nat (time r - t0)) (a1 r) f) (X s r f) (E s (Z.to_nat (time r - t0)) (a2 r) f))).
  Proof.
    intros full nsrc nrow nchan ncorr time a1 a2 E X t0 N T0.
    destruct (predict_vis_spec L full nsrc nchan ncorr (sources_seen nrow time a1 a2 (dde_terms full nsrc nchan ncorr E) (coherencies full nsrc nrow nchan ncorr X))) as (out & O & _ & R & C & P & V).
    - split; cbn; try discriminate; intros x [= <-]; cbn; repeat split.
    - split; discriminate.
    - split; reflexivity.
    - left; discriminate.
    - exact N.
    - exists out. repeat (split; [assumption|]). intros r f Hr Hf i j IJ.
      rewrite (V t0 T0 r f Hr Hf i j IJ). unfold measurement, source_term, jadd, jzero. cbn. unfold jsum. ring.
  Qed.
  Lemma base_gained_value : forall full nrow nchan ncorr time a1 a2 G B t0, 0 < nrow -> is_min nrow time t0 ->
    exists out, predict_vis (base_gained nrow time a1 a2 (die_terms full nchan ncorr G) (base full nrow nchan ncorr B)) = Ok out /\
      v_row out = nrow /\ v_chan out = nchan /\ v_corr out = ncorr /\
      forall r f, r < nrow -> f < nchan -> jeq full ncorr (v_at out r f)
        (sandwich (K := K) full (G (Z.to_nat (time r - t0)) (a1 r) f) (B r f) (G (Z.to_nat (time r - t0)) (a2 r) f)).
  Proof.
    intros full nrow nchan ncorr time a1 a2 G B t0 N T0.
    destruct (predict_vis_spec L full 0 nchan ncorr (base_gained nrow time a1 a2 (die_terms full nchan ncorr G) (base full nrow nchan ncorr B))) as (out & O & _ & R & C & P & V).
    - split; cbn; try discriminate; intros x [= <-]; cbn; repeat split.
    - split; reflexivity.
    - split; discriminate.
    - right; right; left; discriminate.
    - exact N.
    - exists out. repeat (split; [assumption|]). intros r f Hr Hf i j IJ.
      rewrite (V t0 T0 r f Hr Hf i j IJ). unfold measurement, source_term. cbn. unfold sandwich, jprod, jherm, jadd, jzero.
      destruct full; cbn; ring.
  Qed.
End Generic.

(* ---------- the image transform ---------- *)
Lemma phase_delay_sign : forall conv e nsrc nrow nchan lm uvw freq, im_sign conv e ->
  exists k, phase_delay nsrc nrow nchan lm uvw freq conv = Ok k /\
    forall s r f, s < nsrc -> r < nrow -> f < nchan -> k s r f = cis (e * src_delay lm uvw freq s r f)%R.
Proof.
  intros conv e nsrc nrow nchan lm uvw freq [].
  - destruct (phase_delay_fourier nsrc nrow nchan lm uvw freq) as (k & E & V). exists k. split; [exact E|].
    intros s r f S R F. rewrite (V s r f S R F). f_equal. unfold src_delay. ring.
  - destruct (phase_delay_casa nsrc nrow nchan lm uvw freq) as (k & E & V). exists k. split; [exact E|].
    intros s r f S R F. rewrite (V s r f S R F). f_equal. unfold src_delay. ring.
Qed.
Lemma dft_is_predict : forall conv e nsrc nrow nchan ncorr image uvw lm freq time a1 a2, im_sign conv e -> 0 < nrow ->
  exists k V out, phase_delay nsrc nrow nchan lm uvw freq conv = Ok k /\
    im_to_vis nrow nsrc nchan ncorr image uvw lm freq conv = Ok V /\
    predict_vis (sources_only nrow time a1 a2 (coherencies (K := RC) false nsrc nrow nchan ncorr (fun s r f => per_corr (fun c => cmul (k s r f) (image s f c))))) = Ok out /\
    forall r f c, r < nrow -> f < nchan -> c < ncorr -> v_at out r f c 0 = V r f c.
Proof.
  intros conv e nsrc nrow nchan ncorr image uvw lm freq time a1 a2 S N.
  destruct (phase_delay_sign conv e nsrc nrow nchan lm uvw freq S) as (k & EK & VK).
  destruct (im_to_vis_value nrow nsrc nchan ncorr image uvw lm freq conv e S) as (V & EV & VV).
  destruct (sources_only_value RC_laws false nsrc nrow nchan ncorr time a1 a2 (fun s r f => per_corr (K := RC) (fun c => cmul (k s r f) (image s f c))) N) as (out & EO & _ & _ & _ & VO).
  exists k, V, out. repeat (split; [assumption|]). intros r f c R F C.
  rewrite (VO r f R F c 0 (conj C eq_refl)), (VV r f c R F C). unfold jsum, per_corr. apply csum_ext. intros s Hs. now rewrite VK.
Qed.
Lemma dft_is_predict_full : forall conv e nsrc nrow nchan image uvw lm freq time a1 a2, im_sign conv e -> 0 < nrow ->
  exists k V out, phase_delay nsrc nrow nchan lm uvw freq conv = Ok k /\
    im_to_vis nrow nsrc nchan 4 image uvw lm freq conv = Ok V /\
    predict_vis (sources_only nrow time a1 a2 (coherencies (K := RC) true nsrc nrow nchan 2 (fun s r f i j => cmul (k s r f) (image s f (2 * i + j))))) = Ok out /\
    forall r f i j, r < nrow -> f < nchan -> i < 2 -> j < 2 -> v_at out r f i j = V r f (2 * i + j).
Proof.
  intros conv e nsrc nrow nchan image uvw lm freq time a1 a2 S N.
  destruct (phase_delay_sign conv e nsrc nrow nchan lm uvw freq S) as (k & EK & VK).
  destruct (im_to_vis_value nrow nsrc nchan 4 image uvw lm freq conv e S) as (V & EV & VV).
  destruct (sources_only_value RC_laws true nsrc nrow nchan 2 time a1 a2 (fun s r f i j => (cmul (k s r f) (image s f (2 * i + j)) : RC)) N) as (out & EO & _ & _ & _ & VO).
  exists k, V, out. repeat (split; [assumption|]). intros r f i j R F I J.
  rewrite (VO r f R F i j (conj I J)), (VV r f (2 * i + j) R F) by lia. unfold jsum. apply csum_ext. intros s Hs. now rewrite VK.
Qed.

(* ---------- WSClean components ---------- *)
Lemma wsclean_is_predict : forall nsrc nrow nchan ncoeffs uvw lm kind flux coeffs lp rf gauss freq g gs gf time a1 a2, lp_fits nsrc lp ->
  (forall s, s < nsrc -> acceptable ncoeffs kind flux coeffs lp s) -> 0 < nrow ->
  exists k spec V out, phase_delay nsrc nrow nchan lm uvw freq "casa" = Ok k /\
    spectra nsrc nsrc nsrc nchan ncoeffs flux coeffs lp rf freq gs = Ok spec /\
    wsclean_predict nsrc nrow nchan ncoeffs uvw lm kind flux coeffs lp rf gauss freq g = Ok V /\
    predict_vis (sources_only nrow time a1 a2 (coherencies (K := RC) false nsrc nrow nchan 1 (fun s r f => per_corr (fun _ =>
      cmul (k s r f) (ofR (spec s f * (if String.eqb (kind s) "POINT" then 1 else gaussian nsrc nrow nchan uvw freq gauss gf s r f))))))) = Ok out /\
    forall r f, r < nrow -> f < nchan -> v_at out r f 0 0 = V r f 0.
Proof.
  intros nsrc nrow nchan ncoeffs uvw lm kind flux coeffs lp rf gauss freq g gs gf time a1 a2 LP AC N.
  destruct (phase_delay_casa nsrc nrow nchan lm uvw freq) as (k & EK & VK).
  destruct (predict_value nsrc nrow nchan ncoeffs uvw lm kind flux coeffs lp rf gauss freq g LP AC) as (V & EV & VV).
  destruct (spectra_value nsrc nchan ncoeffs flux coeffs lp rf freq gs LP (fun s H => proj2 (AC s H))) as (spec & ES & VS).
  destruct (sources_only_value RC_laws false nsrc nrow nchan 1 time a1 a2 (fun s r f => per_corr (K := RC) (fun _ =>
      cmul (k s r f) (ofR (spec s f * (if String.eqb (kind s) "POINT" then 1 else gaussian nsrc nrow nchan uvw freq gauss gf s r f)))%R)) N) as (out & EO & _ & _ & _ & VO).
  exists k, spec, V, out. repeat (split; [assumption|]). intros r f R F.
  rewrite (VO r f R F 0 0 (conj Nat.lt_0_1 eq_refl)), (VV r f R F). unfold jsum, per_corr. apply csum_ext. intros s Hs.
  unfold component_vis. rewrite VK, VS by assumption. f_equal. f_equal. f_equal. unfold extent.
  destruct (String.eqb (kind s) "POINT"); [reflexivity|].
  destruct (gaussian_envelope nsrc nrow nchan uvw freq gauss gf s r f Hs R F) as [G1 G2].
  destruct (Req_EM_T (gauss s 0) 0) as [e|e]; [now apply G2|now apply G1].
Qed.

(* ---------- calibration ---------- *)
Section Cal.
  Context {F : fops} (L : flaws F).
  Add Field Ffield : (law_field F L).
  Lemma gsandwich_is : forall mode (a m b : jones F), gsandwich mode a m b = sandwich (mode_full mode) (gain_matrix mode a) m (gain_matrix mode b).
  Proof. intros []; reflexivity. Qed.
  Lemma indexed_min : forall nrow n tbi tmin tbc time t0, indexed_bins nrow n tbi tmin tbc time t0 -> is_min nrow time t0.
  Proof. intros nrow n tbi tmin tbc time t0 [A B]. split; [exact B|]. intros r R. destruct (A r R) as (t & _ & _ & E). lia. Qed.
  Lemma corrupt_is_predict : forall n tbi tbc ant1 ant2 (g : gain_arr F) (m : model_arr F) mode tmin time t0,
    check_type (j_ndim g) (m_ndim m) VT_model = Ok mode ->
    0 < n -> is_min n tbi tmin -> bins_disjoint n tbi tmin tbc -> indexed_bins (m_row m) n tbi tmin tbc time t0 -> 0 < m_row m ->
    exists tbi' out out', corrupt_vis n tbi tbc ant1 ant2 g m = Ok (tbi', out) /\
      predict_vis (sources_seen (m_row m) time ant1 ant2
        (dde_terms (mode_full mode) (m_dir m) (m_chan m) (m_corr m) (fun s t a f => gain_matrix mode (j_at g t a f s)))
        (coherencies (mode_full mode) (m_dir m) (m_row m) (m_chan m) (m_corr m) (fun s r f => m_at m r f s))) = Ok out' /\
      forall r f, r < m_row m -> f < m_chan m -> jeq (mode_full mode) (m_corr m) (v_at out r f) (v_at out' r f).
  Proof.
    intros n tbi tbc ant1 ant2 g m mode tmin time t0 CT N MN BD IB NR.
    destruct (corrupt_vis_spec L n tbi tbc ant1 ant2 g m mode tmin CT N MN BD) as (tbi' & out & E & _ & _ & _ & _ & _ & V).
    destruct (sources_seen_value (law_c F L) (mode_full mode) (m_dir m) (m_row m) (m_chan m) (m_corr m) time ant1 ant2
                (fun s t a f => gain_matrix mode (j_at g t a f s)) (fun s r f => m_at m r f s) t0 NR (indexed_min _ _ _ _ _ _ _ IB)) as (out' & E' & _ & _ & _ & V').
    exists tbi', out, out'. repeat (split; [assumption|]). intros r f R Hf i j IJ.
    rewrite (V' r f R Hf i j IJ). destruct (ib_row _ _ _ _ _ _ _ IB r R) as (t & T & BT & TE).
    rewrite (proj1 (V r f Hf) t T BT i j IJ). replace (Z.to_nat (time r - t0)) with t by lia.
    unfold corrupted, jsum. apply csum_ext. intros s Hs. now rewrite gsandwich_is.
  Qed.
  Lemma corrupt_is_predict_one : forall n tbi tbc ant1 ant2 (g : gain_arr F) (m : model_arr F) mode tmin time t0,
    check_type (j_ndim g) (m_ndim m) VT_model = Ok mode -> m_dir m = 1 ->
    0 < n -> is_min n tbi tmin -> bins_disjoint n tbi tmin tbc -> indexed_bins (m_row m) n tbi tmin tbc time t0 -> 0 < m_row m ->
    exists tbi' out out', corrupt_vis n tbi tbc ant1 ant2 g m = Ok (tbi', out) /\
      predict_vis (base_gained (m_row m) time ant1 ant2
        (die_terms (mode_full mode) (m_chan m) (m_corr m) (fun t a f => gain_matrix mode (j_at g t a f 0)))
        (base (mode_full mode) (m_row m) (m_chan m) (m_corr m) (fun r f => m_at m r f 0))) = Ok out' /\
      forall r f, r < m_row m -> f < m_chan m -> jeq (mode_full mode) (m_corr m) (v_at out r f) (v_at out' r f).
  Proof.
    intros n tbi tbc ant1 ant2 g m mode tmin time t0 CT ONE N MN BD IB NR.
    destruct (corrupt_vis_spec L n tbi tbc ant1 ant2 g m mode tmin CT N MN BD) as (tbi' & out & E & _ & _ & _ & _ & _ & V).
    destruct (base_gained_value (law_c F L) (mode_full mode) (m_row m) (m_chan m) (m_corr m) time ant1 ant2
                (fun t a f => gain_matrix mode (j_at g t a f 0)) (fun r f => m_at m r f 0) t0 NR (indexed_min _ _ _ _ _ _ _ IB)) as (out' & E' & _ & _ & _ & V').
    exists tbi', out, out'. repeat (split; [assumption|]). intros r f R Hf i j IJ.
    rewrite (V' r f R Hf i j IJ). destruct (ib_row _ _ _ _ _ _ _ IB r R) as (t & T & BT & TE).
    rewrite (proj1 (V r f Hf) t T BT i j IJ). replace (Z.to_nat (time r - t0)) with t by lia.
    unfold corrupted, jsum. rewrite ONE. cbn [csum]. rewrite gsandwich_is. ring.
  Qed.
  Lemma residual_is_predict : forall n tbi tbc ant1 ant2 (g : gain_arr F) (v : vis_arr F) flag (m : model_arr F) mode tmin time t0,
    check_type (j_ndim g) (v_ndim v) VT_vis = Ok mode ->
    0 < n -> is_min n tbi tmin -> bins_disjoint n tbi tmin tbc -> indexed_bins (v_row v) n tbi tmin tbc time t0 -> 0 < v_row v ->
    exists tbi' out out', residual_vis n tbi tbc ant1 ant2 g v flag m = Ok (tbi', out) /\
      predict_vis (sources_seen (v_row v) time ant1 ant2
        (dde_terms (mode_full mode) (m_dir m) (v_chan v) (v_corr v) (fun s t a f => gain_matrix mode (j_at g t a f s)))
        (coherencies (mode_full mode) (m_dir m) (v_row v) (v_chan v) (v_corr v) (fun s r f => m_at m r f s))) = Ok out' /\
      forall r f, r < v_row v -> f < v_chan v -> ~ CalSpec.flagged (mode_full mode) (v_corr v) (flag r f) ->
        jeq (mode_full mode) (v_corr v) (jadd (v_at out r f) (v_at out' r f)) (v_at v r f).
  Proof.
    intros n tbi tbc ant1 ant2 g v flag m mode tmin time t0 CT N MN BD IB NR.
    destruct (residual_vis_spec L n tbi tbc ant1 ant2 g v flag m mode tmin CT N MN BD) as (tbi' & out & E & _ & _ & _ & _ & _ & V).
    destruct (sources_seen_value (law_c F L) (mode_full mode) (m_dir m) (v_row v) (v_chan v) (v_corr v) time ant1 ant2
                (fun s t a f => gain_matrix mode (j_at g t a f s)) (fun s r f => m_at m r f s) t0 NR (indexed_min _ _ _ _ _ _ _ IB)) as (out' & E' & _ & _ & _ & V').
    exists tbi', out, out'. repeat (split; [assumption|]). intros r f R Hf NF i j IJ. unfold jadd.
    rewrite (V' r f R Hf i j IJ). destruct (ib_row _ _ _ _ _ _ _ IB r R) as (t & T & BT & TE).
    rewrite (proj1 (V r f Hf) t T BT NF i j IJ). replace (Z.to_nat (time r - t0)) with t by lia.
    unfold jsub, corrupted, jsum.
    rewrite (csum_ext (m_dir m) (fun s => sandwich (mode_full mode) (gain_matrix mode (j_at g t (ant1 r) f s)) (m_at m r f s) (gain_matrix mode (j_at g t (ant2 r) f s)) i j)
       (fun s => gsandwich mode (j_at g t (ant1 r) f s) (m_at m r f s) (j_at g t (ant2 r) f s) i j)) by (intros s Hs; now rewrite gsandwich_is).
    ring.
  Qed.
End Cal.

(* ---------- prediction inside the calibration code ---------- *)
Section Compute.
  Open Scope R_scope.
  Lemma unit_gain : forall (x : RCF), cmul (cmul (c1 : RCF) x) (cconj (c1 : RCF)) = x.
  Proof. intros [a b]. apply injective_projections; cbn; ring. Qed.
  Lemma compute_is_dft : forall n nrow tbi tbc ant1 ant2 (g : gain_arr RCF) (m : image_arr) uvw freq lm (image : arr3 RC) lm0 tmin,
    j_ndim g = 5%nat -> i_ndim m = 4%nat -> (forall t a f s i j, j_at g t a f s i j = c1) ->
    (forall t f s c j, i_at m t f s c j = image s f c) -> (forall t s i, lm t s i = lm0 s i) ->
    (0 < n)%nat -> is_min n tbi tmin -> bins_disjoint n tbi tmin tbc ->
    exists tbi' out V, compute_and_corrupt_vis n nrow (i_chan m) tbi tbc ant1 ant2 g m uvw freq lm = Ok (tbi', out) /\
      im_to_vis nrow (i_dir m) (i_chan m) (i_corr m)
        (fun s f c => fdiv (image s f c : RCF) (ofR (sqrt (1 - lm0 s 0%nat ^ 2 - lm0 s 1%nat ^ 2)) : RCF)) uvw lm0 freq "fourier" = Ok V /\
      forall t r f c, (t < n)%nat -> in_bin tbi tmin tbc t r -> (r < nrow)%nat -> (f < i_chan m)%nat -> (c < i_corr m)%nat -> v_at out r f c 0%nat = V r f c.
  Proof.
    intros n nrow tbi tbc ant1 ant2 g m uvw freq lm image lm0 tmin JN IN G1 IM LM N MN BD.
    destruct (cac_spec n nrow tbi tbc ant1 ant2 g m uvw freq lm DIAG_DIAG tmin) as (tbi' & out & E & _ & _ & _ & _ & _ & V); auto.
    { now rewrite JN, IN. }
    destruct (im_to_vis_value nrow (i_dir m) (i_chan m) (i_corr m)
       (fun s f c => fdiv (image s f c : RCF) (ofR (sqrt (1 - lm0 s 0%nat ^ 2 - lm0 s 1%nat ^ 2)) : RCF)) uvw lm0 freq "fourier" (-1) sgn_fourier) as (W & EW & VW).
    exists tbi', out, W. repeat (split; [assumption|]). intros t r f c T BT R F C.
    rewrite (VW r f c R F C), (proj1 (V r f F) t T BT c 0%nat (conj C eq_refl)). unfold jsum. cbn [gsandwich].
    apply csum_ext. intros s Hs. unfold sandwich, jprod, jherm. rewrite !G1.
    transitivity (predicted m uvw freq lm t r f s c 0%nat).
    { destruct (predicted m uvw freq lm t r f s c 0%nat). apply injective_projections; cbn; ring. }
    unfold predicted. rewrite IM, !LM. unfold src_delay.
    replace (-1 * delay (lm0 s 0%nat) (lm0 s 1%nat) (uvw r 0%nat) (uvw r 1%nat) (uvw r 2%nat) (freq f)) with (- delay (lm0 s 0%nat) (lm0 s 1%nat) (uvw r 0%nat) (uvw r 1%nat) (uvw r 2%nat) (freq f)) by ring.
    replace (n1 (lm0 s 0%nat) (lm0 s 1%nat) + 1) with (sqrt (1 - lm0 s 0%nat ^ 2 - lm0 s 1%nat ^ 2)) by (unfold n1; replace (1 - lm0 s 0%nat ^ 2 - lm0 s 1%nat ^ 2) with (1 - lm0 s 0%nat * lm0 s 0%nat - lm0 s 1%nat * lm0 s 1%nat) by ring; ring).
    set (z := ofR _). set (w := cis _). destruct (image s f c) as [a b]. unfold fdiv; cbn [RCF]. destruct (rc_inv z), w. apply injective_projections; cbn; ring.
  Qed.
End Compute.

(* ---------- feed rotation ---------- *)
Section Feed.
  Lemma feed_unitary : forall n pa ft g o, ft = "linear"%string \/ ft = "circular"%string -> feed_rotation n pa true ft g = Ok o ->
    forall i, i < n -> meq (mmul (o i) (mH (o i))) m_id.
  Proof.
    intros n pa ft g o [-> | ->] E i I; [exact (proj1 (feed_linear_orthogonal n pa g o E i I))|exact (proj1 (feed_circular_unitary n pa g o E i I))].
  Qed.
  Lemma feed_entries : forall n pa ft g o, ft = "linear"%string \/ ft = "circular"%string -> feed_rotation n pa true ft g = Ok o ->
    forall i j, i < n -> j < n -> pa i = pa j -> meq (o i) (o j).
  Proof.
    intros n pa ft g o [-> | ->] E i j I J P.
    - destruct (feed_linear n pa g) as (o' & E' & V). rewrite E' in E. injection E as <-.
      destruct (V i I) as (A & B & C & D), (V j J) as (A' & B' & C' & D'). rewrite P in *.
      intros [|[|x]] [|[|y]] X Y; try lia; congruence.
    - destruct (feed_circular_unitary n pa g o E i I) as (_ & A & B & C & D), (feed_circular_unitary n pa g o E j J) as (_ & A' & B' & C' & D').
      rewrite P in *. intros [|[|x]] [|[|y]] X Y; try lia; congruence.
  Qed.
  Lemma feed_keeps_unpolarised : forall ntime na pa ft g o nsrc nrow nchan (I : nat -> nat -> nat -> RC) time ant1 ant2 t0,
    ft = "linear"%string \/ ft = "circular"%string -> feed_rotation (ntime * na) pa true ft g = Ok o ->
    0 < nrow -> is_min nrow time t0 ->
    (forall r, r < nrow -> ant1 r < na /\ ant2 r < na /\ (time r - t0 < Z.of_nat ntime)%Z /\
       pa (Z.to_nat (time r - t0) * na + ant1 r) = pa (Z.to_nat (time r - t0) * na + ant2 r)) ->
    exists out out', predict_vis (sources_seen nrow time ant1 ant2
        (dde_terms (K := RC) true nsrc nchan 2 (fun _ t a _ => o (t * na + a)))
        (coherencies true nsrc nrow nchan 2 (fun s r f => unpolarised (I s r f)))) = Ok out /\
      predict_vis (sources_only nrow time ant1 ant2 (coherencies true nsrc nrow nchan 2 (fun s r f => unpolarised (I s r f)))) = Ok out' /\
      forall r f, r < nrow -> f < nchan -> jeq true 2 (v_at out r f) (v_at out' r f).
  Proof.
    intros ntime na pa ft g o nsrc nrow nchan I time ant1 ant2 t0 FT FE NR MN H.
    destruct (sources_seen_value RC_laws true nsrc nrow nchan 2 time ant1 ant2 (fun _ t a _ => o (t * na + a)) (fun s r f => unpolarised (I s r f)) t0 NR MN) as (out & E & _ & _ & _ & V).
    destruct (sources_only_value RC_laws true nsrc nrow nchan 2 time ant1 ant2 (fun s r f => unpolarised (I s r f)) NR) as (out' & E' & _ & _ & _ & V').
    exists out, out'. repeat (split; [assumption|]). intros r f R F i j IJ. rewrite (V r f R F i j IJ), (V' r f R F i j IJ).
    unfold jsum. apply csum_ext. intros s Hs. destruct (H r R) as (A1 & A2 & T & P).
    assert (T0 : (t0 <= time r)%Z) by (apply (proj2 MN); exact R).
    set (k := Z.to_nat (time r - t0)) in *. assert (K : k < ntime) by (unfold k; lia).
    assert (B1 : k * na + ant1 r < ntime * na) by nia. assert (B2 : k * na + ant2 r < ntime * na) by nia.
    pose proof (feed_entries _ _ _ _ _ FT FE _ _ B1 B2 P) as Q. pose proof (feed_unitary _ _ _ _ _ FT FE _ B1) as U.
    destruct IJ as [I2 J2]. specialize (U i j I2 J2).
    unfold sandwich, jprod, jherm. cbn [csum]. rewrite <- !(Q _ _ J2) by lia.
    set (a := o (k * na + ant1 r)) in *. unfold unpolarised. cbn [Nat.eqb].
    transitivity (cmul (I s r f) (mmul a (mH a) i j)).
    { unfold mmul, mH. destruct (a i 0), (a i 1), (a j 0), (a j 1), (I s r f). apply injective_projections; cbn; ring. }
    rewrite U. unfold m_id. destruct (Nat.eqb i j), (I s r f); apply injective_projections; cbn; ring.
  Qed.
End Feed.

(* ---------- point components and the image transform ---------- *)
Lemma wsclean_is_dft : forall nsrc nrow nchan ncoeffs uvw lm kind flux coeffs lp rf gauss freq g gs, lp_fits nsrc lp ->
  (forall s, s < nsrc -> acceptable ncoeffs kind flux coeffs lp s /\ kind s = "POINT"%string) ->
  exists spec V W W', spectra nsrc nsrc nsrc nchan ncoeffs flux coeffs lp rf freq gs = Ok spec /\
    wsclean_predict nsrc nrow nchan ncoeffs uvw lm kind flux coeffs lp rf gauss freq g = Ok V /\
    im_to_vis nrow nsrc nchan 1 (fun s f _ => ofR (spec s f)) uvw lm freq "casa" = Ok W /\
    im_to_vis nrow nsrc nchan 1 (fun s f _ => ofR (spec s f)) uvw lm freq "fourier" = Ok W' /\
    forall r f, r < nrow -> f < nchan -> V r f 0 = W r f 0 /\ V r f 0 = cconj (W' r f 0).
Proof.
  intros nsrc nrow nchan ncoeffs uvw lm kind flux coeffs lp rf gauss freq g gs LP AC.
  destruct (predict_value nsrc nrow nchan ncoeffs uvw lm kind flux coeffs lp rf gauss freq g LP (fun s H => proj1 (AC s H))) as (V & EV & VV).
  destruct (spectra_value nsrc nchan ncoeffs flux coeffs lp rf freq gs LP (fun s H => proj2 (proj1 (AC s H)))) as (spec & ES & VS).
  destruct (im_to_vis_value nrow nsrc nchan 1 (fun s f _ => ofR (spec s f)) uvw lm freq "casa" 1 sgn_casa) as (W & EW & VW).
  destruct (im_to_vis_value nrow nsrc nchan 1 (fun s f _ => ofR (spec s f)) uvw lm freq "fourier" (-1) sgn_fourier) as (W' & EW' & VW').
  exists spec, V, W, W'. repeat (split; [assumption|]). intros r f R F.
  assert (X : V r f 0 = csum (K := RC) nsrc (fun s => cmul (cis (src_delay lm uvw freq s r f)) (ofR (spec s f)))).
  { rewrite (VV r f R F). apply csum_ext. intros s Hs. unfold component_vis, extent. rewrite (proj2 (AC s Hs)), VS by assumption.
    cbn [String.eqb Ascii.eqb Bool.eqb]. f_equal. f_equal. change (flux_of ncoeffs flux coeffs lp rf freq s f) with (component_flux ncoeffs (lp_at lp s) (flux s) (coeffs s) (freq f) (rf s)).
    apply Rmult_1_r. }
  split.
  - rewrite X, (VW r f 0 R F Nat.lt_0_1). apply csum_ext. intros s Hs. f_equal. f_equal. ring.
  - rewrite X, (VW' r f 0 R F Nat.lt_0_1), (csum_conj RC_laws). apply csum_ext. intros s Hs.
    unfold cis. replace (-1 * src_delay lm uvw freq s r f)%R with (- src_delay lm uvw freq s r f)%R by ring.
    rewrite cos_neg, sin_neg. apply injective_projections; cbn; ring.
Qed.
