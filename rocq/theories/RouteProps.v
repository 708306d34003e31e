(* C102: the different routes to the same visibilities agree *)
From Coq Require Import Reals Lra String.
From Verif Require Import Prelude CRing CField CplxR CplxF PredictModel PredictSpec CalModel CalSpec RimeModel RimeSpec DftModel DftSpec DftProofs
  SrcModel SrcSpec Cal2Model Cal2Spec Cal2Proofs Cal2Proofs2 Cal2Proofs3 RouteSpec RouteProofs.
Open Scope nat_scope.

(* im_to_vis is predict_vis of phase_delay times the image, in either convention *)
Theorem C102_image_transform : forall conv e nsrc nrow nchan ncorr image uvw lm freq time a1 a2, im_sign conv e -> 0 < nrow ->
  exists k V out, phase_delay nsrc nrow nchan lm uvw freq conv = Ok k /\
    im_to_vis nrow nsrc nchan ncorr image uvw lm freq conv = Ok V /\
    predict_vis (sources_only nrow time a1 a2 (coherencies (K := RC) false nsrc nrow nchan ncorr (fun s r f => per_corr (fun c => cmul (k s r f) (image s f c))))) = Ok out /\
    forall r f c, r < nrow -> f < nchan -> c < ncorr -> v_at out r f c 0 = V r f c.
Proof. exact dft_is_predict. Qed.
(* the same for 2x2 coherencies, in row-major order *)
Theorem C102_image_transform_2x2 : forall conv e nsrc nrow nchan image uvw lm freq time a1 a2, im_sign conv e -> 0 < nrow ->
  exists k V out, phase_delay nsrc nrow nchan lm uvw freq conv = Ok k /\
    im_to_vis nrow nsrc nchan 4 image uvw lm freq conv = Ok V /\
    predict_vis (sources_only nrow time a1 a2 (coherencies (K := RC) true nsrc nrow nchan 2 (fun s r f i j => cmul (k s r f) (image s f (2 * i + j))))) = Ok out /\
    forall r f i j, r < nrow -> f < nchan -> i < 2 -> j < 2 -> v_at out r f i j = V r f (2 * i + j).
Proof. exact dft_is_predict_full. Qed.

(* wsclean_predict is predict_vis of phase_delay in the "casa" convention times the spectrum, times the Gaussian shape for
   the components that are not points *)
Theorem C102_components : forall nsrc nrow nchan ncoeffs uvw lm kind flux coeffs lp rf gauss freq g gs gf time a1 a2, lp_fits nsrc lp ->
  (forall s, s < nsrc -> acceptable ncoeffs kind flux coeffs lp s) -> 0 < nrow ->
  exists k spec V out, phase_delay nsrc nrow nchan lm uvw freq "casa" = Ok k /\
    spectra nsrc nsrc nsrc nchan ncoeffs flux coeffs lp rf freq gs = Ok spec /\
    wsclean_predict nsrc nrow nchan ncoeffs uvw lm kind flux coeffs lp rf gauss freq g = Ok V /\
    predict_vis (sources_only nrow time a1 a2 (coherencies (K := RC) false nsrc nrow nchan 1 (fun s r f => per_corr (fun _ =>
      cmul (k s r f) (ofR (spec s f * (if String.eqb (kind s) "POINT" then 1 else gaussian nsrc nrow nchan uvw freq gauss gf s r f))))))) = Ok out /\
    forall r f, r < nrow -> f < nchan -> v_at out r f 0 0 = V r f 0.
Proof. exact wsclean_is_predict. Qed.
(* for points it is im_to_vis of the spectra in the "casa" convention, and the conjugate of the default convention *)
Theorem C102_points : forall nsrc nrow nchan ncoeffs uvw lm kind flux coeffs lp rf gauss freq g gs, lp_fits nsrc lp ->
  (forall s, s < nsrc -> acceptable ncoeffs kind flux coeffs lp s /\ kind s = "POINT"%string) ->
  exists spec V W W', spectra nsrc nsrc nsrc nchan ncoeffs flux coeffs lp rf freq gs = Ok spec /\
    wsclean_predict nsrc nrow nchan ncoeffs uvw lm kind flux coeffs lp rf gauss freq g = Ok V /\
    im_to_vis nrow nsrc nchan 1 (fun s f _ => ofR (spec s f)) uvw lm freq "casa" = Ok W /\
    im_to_vis nrow nsrc nchan 1 (fun s f _ => ofR (spec s f)) uvw lm freq "fourier" = Ok W' /\
    forall r f, r < nrow -> f < nchan -> V r f 0 = W r f 0 /\ V r f 0 = cconj (W' r f 0).
Proof. exact wsclean_is_dft. Qed.

(* corrupt_vis is predict_vis with the gains as direction-dependent terms and the model as coherencies *)
Theorem C102_corruption : forall {F : fops}, flaws F -> forall n tbi tbc ant1 ant2 (g : gain_arr F) (m : model_arr F) mode tmin time t0,
  check_type (j_ndim g) (m_ndim m) VT_model = Ok mode ->
  0 < n -> is_min n tbi tmin -> bins_disjoint n tbi tmin tbc -> indexed_bins (m_row m) n tbi tmin tbc time t0 -> 0 < m_row m ->
  exists tbi' out out', corrupt_vis n tbi tbc ant1 ant2 g m = Ok (tbi', out) /\
    predict_vis (sources_seen (m_row m) time ant1 ant2
      (dde_terms (mode_full mode) (m_dir m) (m_chan m) (m_corr m) (fun s t a f => gain_matrix mode (j_at g t a f s)))
      (coherencies (mode_full mode) (m_dir m) (m_row m) (m_chan m) (m_corr m) (fun s r f => m_at m r f s))) = Ok out' /\
    forall r f, r < m_row m -> f < m_chan m -> jeq (mode_full mode) (m_corr m) (v_at out r f) (v_at out' r f).
Proof. intros F L. exact (corrupt_is_predict L). Qed.
(* with one direction: the gains as direction-independent terms and the model as base visibilities *)
Theorem C102_corruption_one_direction : forall {F : fops}, flaws F -> forall n tbi tbc ant1 ant2 (g : gain_arr F) (m : model_arr F) mode tmin time t0,
  check_type (j_ndim g) (m_ndim m) VT_model = Ok mode -> m_dir m = 1 ->
  0 < n -> is_min n tbi tmin -> bins_disjoint n tbi tmin tbc -> indexed_bins (m_row m) n tbi tmin tbc time t0 -> 0 < m_row m ->
  exists tbi' out out', corrupt_vis n tbi tbc ant1 ant2 g m = Ok (tbi', out) /\
    predict_vis (base_gained (m_row m) time ant1 ant2
      (die_terms (mode_full mode) (m_chan m) (m_corr m) (fun t a f => gain_matrix mode (j_at g t a f 0)))
      (base (mode_full mode) (m_row m) (m_chan m) (m_corr m) (fun r f => m_at m r f 0))) = Ok out' /\
    forall r f, r < m_row m -> f < m_chan m -> jeq (mode_full mode) (m_corr m) (v_at out r f) (v_at out' r f).
Proof. intros F L. exact (corrupt_is_predict_one L). Qed.
(* the unflagged residuals plus that prediction are the visibilities *)
Theorem C102_residual : forall {F : fops}, flaws F -> forall n tbi tbc ant1 ant2 (g : gain_arr F) (v : vis_arr F) flag (m : model_arr F) mode tmin time t0,
  check_type (j_ndim g) (v_ndim v) VT_vis = Ok mode ->
  0 < n -> is_min n tbi tmin -> bins_disjoint n tbi tmin tbc -> indexed_bins (v_row v) n tbi tmin tbc time t0 -> 0 < v_row v ->
  exists tbi' out out', residual_vis n tbi tbc ant1 ant2 g v flag m = Ok (tbi', out) /\
    predict_vis (sources_seen (v_row v) time ant1 ant2
      (dde_terms (mode_full mode) (m_dir m) (v_chan v) (v_corr v) (fun s t a f => gain_matrix mode (j_at g t a f s)))
      (coherencies (mode_full mode) (m_dir m) (v_row v) (v_chan v) (v_corr v) (fun s r f => m_at m r f s))) = Ok out' /\
    forall r f, r < v_row v -> f < v_chan v -> ~ CalSpec.flagged (mode_full mode) (v_corr v) (flag r f) ->
      jeq (mode_full mode) (v_corr v) (jadd (v_at out r f) (v_at out' r f)) (v_at v r f).
Proof. intros F L. exact (residual_is_predict L). Qed.

(* compute_and_corrupt_vis with unit gains is im_to_vis of the image divided by n ... *)
Theorem C102_unit_gains : forall n nrow tbi tbc ant1 ant2 (g : gain_arr RCF) (m : image_arr) uvw freq lm (image : arr3 RC) lm0 tmin,
  j_ndim g = 5 -> i_ndim m = 4 -> (forall t a f s i j, j_at g t a f s i j = c1) ->
  (forall t f s c j, i_at m t f s c j = image s f c) -> (forall t s i, lm t s i = lm0 s i) ->
  0 < n -> is_min n tbi tmin -> bins_disjoint n tbi tmin tbc ->
  exists tbi' out V, compute_and_corrupt_vis n nrow (i_chan m) tbi tbc ant1 ant2 g m uvw freq lm = Ok (tbi', out) /\
    im_to_vis nrow (i_dir m) (i_chan m) (i_corr m)
      (fun s f c => fdiv (image s f c : RCF) (ofR (sqrt (1 - lm0 s 0%nat ^ 2 - lm0 s 1%nat ^ 2)) : RCF)) uvw lm0 freq "fourier" = Ok V /\
    forall t r f c, t < n -> in_bin tbi tmin tbc t r -> r < nrow -> f < i_chan m -> c < i_corr m -> v_at out r f c 0 = V r f c.
Proof. exact compute_is_dft. Qed.

(* ---------- the example used below: one bin of one row, one direction at l = 3/5, zero baseline ---------- *)
Definition ex_image : image_arr := {| i_ndim := 4; i_chan := 1; i_dir := 1; i_corr := 1; i_at := fun _ _ _ _ _ => (c1 : RC) |}.
Definition ex_gain : gain_arr RCF := {| j_ndim := 5; j_tim := 1; j_chan := 1; j_dir := 1; j_at := fun _ _ _ _ _ _ => (c1 : RCF) |}.
Definition ex_lm : arr2 R := fun _ i => match i with O => (3 / 5)%R | _ => 0%R end.
Lemma ex_bins : bins_disjoint 1 (fun _ => 0%Z) 0 (fun _ => 1) /\ is_min 1 (fun _ => 0%Z) 0.
Proof. split; [intros t t' r T T'; lia|]. split; [exists 0; split; [lia|reflexivity]|]. intros; lia. Qed.
Lemma ex_sqrt : sqrt (1 - (3 / 5) ^ 2 - 0 ^ 2) = (4 / 5)%R.
Proof. replace (1 - (3 / 5) ^ 2 - 0 ^ 2)%R with ((4 / 5) * (4 / 5))%R by field. apply sqrt_square. lra. Qed.
(* ... and so not im_to_vis of the image: away from the phase centre the two routes give different amplitudes *)
Theorem C102_unit_gains_refuted : exists m g lm0 uvw freq tbi' out V,
  (forall t a f s i j, j_at g t a f s i j = c1) /\ (forall t f s c j, i_at m t f s c j = (c1 : RC)) /\
  compute_and_corrupt_vis 1 1 1 (fun _ => 0%Z) (fun _ => 1) (fun _ => 0) (fun _ => 1) g m uvw freq (fun _ => lm0) = Ok (tbi', out) /\
  im_to_vis 1 1 1 1 (fun _ _ _ => (c1 : RC)) uvw lm0 freq "fourier" = Ok V /\
  v_at out 0 0 0 0 = (ofR (5 / 4) : RC) /\ V 0 0 0 = (c1 : RC).
Proof.
  destruct ex_bins as [BD MN].
  destruct (C102_unit_gains 1 1 (fun _ => 0%Z) (fun _ => 1) (fun _ => 0) (fun _ => 1) ex_gain ex_image (fun _ _ => 0%R) (fun _ => 1%R) (fun _ => ex_lm) (fun _ _ _ => (c1 : RC)) ex_lm 0%Z)
    as (tbi' & out & W & E & EW & VW); auto.
  cbn [i_chan i_dir i_corr ex_image] in *.
  destruct (im_to_vis_value 1 1 1 1 (fun _ _ _ => (c1 : RC)) (fun _ _ => 0%R) ex_lm (fun _ => 1%R) "fourier" (-1) sgn_fourier) as (V & EV & VV).
  destruct (im_to_vis_value 1 1 1 1 (fun s f c => fdiv (c1 : RCF) (ofR (sqrt (1 - ex_lm s 0%nat ^ 2 - ex_lm s 1%nat ^ 2)) : RCF)) (fun _ _ => 0%R) ex_lm (fun _ => 1%R) "fourier" (-1) sgn_fourier) as (V' & EV' & VV').
  assert (WV : Ok V' = Ok W) by (rewrite <- EV'; exact EW). injection WV as ->.
  assert (D : (-1 * src_delay ex_lm (fun _ _ => 0%R) (fun _ => 1%R) 0 0 0)%R = 0%R) by (unfold src_delay, delay, light; field).
  exists ex_image, ex_gain, ex_lm, (fun _ _ => 0%R), (fun _ => 1%R), tbi', out, V.
  split; [reflexivity|]. split; [reflexivity|]. split; [exact E|]. split; [exact EV|]. split.
  - rewrite (VW 0 0 0 0); [|lia|unfold in_bin; lia|lia|lia|lia]. rewrite VV' by lia. cbn [csum]. rewrite D. unfold cis. rewrite cos_0, sin_0.
    change (ex_lm 0 0) with (3 / 5)%R. change (ex_lm 0 1) with 0%R. rewrite ex_sqrt. apply injective_projections; cbn; field.
  - rewrite VV by lia. cbn [csum]. rewrite D. unfold cis. rewrite cos_0, sin_0. apply injective_projections; cbn; ring.
Qed.

(* feed rotations by the same parallactic angle at both antennas leave unpolarised sources as they are *)
Theorem C102_unpolarised : forall ntime na pa ft g o nsrc nrow nchan (I : nat -> nat -> nat -> RC) time ant1 ant2 t0,
  ft = "linear"%string \/ ft = "circular"%string -> feed_rotation (ntime * na) pa true ft g = Ok o ->
  0 < nrow -> is_min nrow time t0 ->
  (forall r, r < nrow -> ant1 r < na /\ ant2 r < na /\ (time r - t0 < Z.of_nat ntime)%Z /\
     pa (Z.to_nat (time r - t0) * na + ant1 r) = pa (Z.to_nat (time r - t0) * na + ant2 r)) ->
  exists out out', predict_vis (sources_seen nrow time ant1 ant2
      (dde_terms (K := RC) true nsrc nchan 2 (fun _ t a _ => o (t * na + a)))
      (coherencies true nsrc nrow nchan 2 (fun s r f => unpolarised (I s r f)))) = Ok out /\
    predict_vis (sources_only nrow time ant1 ant2 (coherencies true nsrc nrow nchan 2 (fun s r f => unpolarised (I s r f)))) = Ok out' /\
    forall r f, r < nrow -> f < nchan -> jeq true 2 (v_at out r f) (v_at out' r f).
Proof. exact feed_keeps_unpolarised. Qed.

(* ---------- the hypotheses are met ---------- *)
(* two bins of two rows, time indices offset by seven *)
Example C102_indexed : indexed_bins 4 2 (fun t => (5 + 2 * Z.of_nat t)%Z) 5 (fun _ => 2) (fun r => (7 + Z.of_nat (r / 2))%Z) 7 /\
  bins_disjoint 2 (fun t => (5 + 2 * Z.of_nat t)%Z) 5 (fun _ => 2) /\ is_min 2 (fun t => (5 + 2 * Z.of_nat t)%Z) 5.
Proof.
  repeat split.
  - intros r R. exists (r / 2). pose proof (Nat.div_mod r 2 ltac:(lia)). pose proof (Nat.mod_upper_bound r 2 ltac:(lia)).
    split; [lia|]. split; [unfold in_bin; lia|reflexivity].
  - exists 0. split; [lia|reflexivity].
  - intros t t' r T T' B B'. unfold in_bin in *. lia.
  - exists 0. split; [lia|reflexivity].
  - intros; lia.
Qed.
Example C102_components_met : lp_fits 2 (LScalar false) /\ forall s, s < 2 -> acceptable 1 (fun s => if Nat.eqb s 0 then "POINT" else "GAUSSIAN")%string (fun _ => 1%R) (fun _ _ => (-7/10)%R) (LScalar false) s.
Proof. split; [exact Logic.I|]. intros [|[|s]] H; try lia; (split; [|discriminate]); [now left|now right]. Qed.
Example C102_feed_met : exists o, feed_rotation (2 * 3) (fun k => INR (k / 3)) true "circular" (fun _ _ _ => c0) = Ok o /\
  forall r, r < 6 -> r mod 3 < 3 /\ S r mod 3 < 3 /\ (Z.of_nat (r / 3) - 0 < Z.of_nat 2)%Z /\
    INR ((Z.to_nat (Z.of_nat (r / 3) - 0) * 3 + r mod 3) / 3) = INR ((Z.to_nat (Z.of_nat (r / 3) - 0) * 3 + S r mod 3) / 3).
Proof.
  eexists. split; [reflexivity|]. intros r R.
  do 6 (destruct r as [|r]; [repeat split; cbn; lia|]). lia.
Qed.

Print Assumptions C102_image_transform.
Print Assumptions C102_components.
Print Assumptions C102_corruption.
Print Assumptions C102_unit_gains_refuted.
Print Assumptions C102_unpolarised.
Print Assumptions C102_image_transform_2x2.
Print Assumptions C102_points.
Print Assumptions C102_corruption_one_direction.
Print Assumptions C102_residual.
Print Assumptions C102_unit_gains.
