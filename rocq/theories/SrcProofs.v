From Coq Require Import Reals Lra String.
From Verif Require Import Prelude PreludeFacts CRing CplxR LoopFacts RimeModel RimeSpec DftModel DftSpec DftProofs SrcModel SrcSpec.
Open Scope R_scope.

Lemma Req_bool_spec x y : reflect (x = y) (Req_bool x y).
Proof. unfold Req_bool. destruct (Req_EM_T x y); now constructor. Qed.
Lemma Rle_bool_spec x y : reflect (x <= y) (Rle_bool x y).
Proof. unfold Rle_bool. destruct (Rle_dec x y); now constructor. Qed.

(* ---------- Gaussian ---------- *)
Definition gauss_value (emaj emin angle u v nu : R) : R :=
  let er := emin / (if Req_bool emaj 0 then 1 else emaj) in
  let a := (u * (emaj * cos angle) - v * (emaj * sin angle)) * er * (nu * gauss_scale) in
  let b := (u * (emaj * sin angle) + v * (emaj * cos angle)) * (nu * gauss_scale) in
  exp (- (a * a + b * b)).
Lemma gauss_value_envelope emaj emin angle u v nu :
  gauss_value emaj emin angle u v nu = if Req_EM_T emaj 0 then 1 else envelope emaj emin angle u v nu.
Proof.
  unfold gauss_value. destruct (Req_EM_T emaj 0) as [->|N].
  - rewrite <- exp_0. f_equal. ring.
  - destruct (Req_bool_spec emaj 0) as [|_]; [contradiction|]. unfold envelope, sigma, gauss_scale, fwhminv, fwhm. f_equal.
    assert (S2 : sqrt 2 ^ 2 = 2) by (rewrite <- Rsqr_pow2; apply Rsqr_sqrt; lra).
    change lightspeed with light. unfold Rdiv. set (h := / (2 * sqrt (2 * ln 2))).
    transitivity (- (sqrt 2 ^ 2 * PI ^ 2 * ((emaj * h * ((u * sin angle + v * cos angle) * nu * / light)) ^ 2 +
      (emin * h * ((u * cos angle - v * sin angle) * nu * / light)) ^ 2))).
    + field. split; auto. unfold light. lra.
    + rewrite S2. reflexivity.
Qed.
Lemma gaussian_value nsrc nrow nchan uvw freq sp g s r f : (s < nsrc)%nat -> (r < nrow)%nat -> (f < nchan)%nat ->
  gaussian nsrc nrow nchan uvw freq sp g s r f =
  gauss_value (sp s 0%nat) (sp s 1%nat) (sp s 2%nat) (uvw r 0%nat) (uvw r 1%nat) (freq f).
Proof.
  intros Hs Hr Hf. unfold gaussian. cbv zeta. set (v := gauss_value _ _ _ _ _ _).
  apply (for_at (fun x : arr3 R => x s r f) (fun _ => v) s); auto.
  { intros i x _ Ne. apply (for_frame (fun x : arr3 R => x s r f)). intros j x1 _.
    apply (for_frame (fun x : arr3 R => x s r f)). intros k x2 _. apply upd3_neq. auto. }
  intros x. apply (for_at (fun x : arr3 R => x s r f) (fun _ => v) r); auto.
  { intros j x1 _ Ne. apply (for_frame (fun x : arr3 R => x s r f)). intros k x2 _. apply upd3_neq. auto. }
  intros x1. apply (for_at (fun x : arr3 R => x s r f) (fun _ => v) f); auto.
  { intros k x2 _ Ne. apply upd3_neq. auto. }
  intros x2. rewrite upd3_eq. unfold v, gauss_value.
  assert (E : for_ nchan (fun f x => upd x f (freq f * gauss_scale)) (fun _ => 0) f = freq f * gauss_scale).
  { apply (for_at (fun x : arr R => x f) (fun _ => freq f * gauss_scale) f); auto.
    - intros i y _ Ne. apply upd_neq. auto.
    - intros y. apply upd_eq. }
  rewrite E. f_equal.
Qed.
Theorem gaussian_envelope nsrc nrow nchan uvw freq sp g s r f : (s < nsrc)%nat -> (r < nrow)%nat -> (f < nchan)%nat ->
  (sp s 0%nat <> 0 -> gaussian nsrc nrow nchan uvw freq sp g s r f =
     envelope (sp s 0%nat) (sp s 1%nat) (sp s 2%nat) (uvw r 0%nat) (uvw r 1%nat) (freq f)) /\
  (sp s 0%nat = 0 -> gaussian nsrc nrow nchan uvw freq sp g s r f = 1).
Proof.
  intros Hs Hr Hf. rewrite gaussian_value by auto. rewrite gauss_value_envelope.
  split; intros H; destruct (Req_EM_T (sp s 0%nat) 0); auto; contradiction.
Qed.
Lemma exp_le_1 a b : exp (- (a * a + b * b)) <= 1.
Proof.
  rewrite <- exp_0. destruct (Req_dec (a * a + b * b) 0) as [->|N]; [rewrite Ropp_0; lra|]. left. apply exp_increasing.
  assert (0 <= a * a) by (apply Rle_0_sqr). assert (0 <= b * b) by (apply Rle_0_sqr). lra.
Qed.
Theorem gaussian_range nsrc nrow nchan uvw freq sp g s r f : (s < nsrc)%nat -> (r < nrow)%nat -> (f < nchan)%nat ->
  0 < gaussian nsrc nrow nchan uvw freq sp g s r f <= 1.
Proof.
  intros Hs Hr Hf. rewrite gaussian_value by auto. unfold gauss_value. cbv zeta. split; [apply exp_pos|].
  apply exp_le_1.
Qed.
Theorem gaussian_origin nsrc nrow nchan uvw freq sp g s r f : (s < nsrc)%nat -> (r < nrow)%nat -> (f < nchan)%nat ->
  uvw r 0%nat = 0 -> uvw r 1%nat = 0 -> gaussian nsrc nrow nchan uvw freq sp g s r f = 1.
Proof.
  intros Hs Hr Hf A B. rewrite gaussian_value by auto. unfold gauss_value. rewrite A, B. rewrite <- exp_0. f_equal. ring.
Qed.
Theorem gaussian_even nsrc nrow nchan uvw uvw' freq sp g g' s r f : (s < nsrc)%nat -> (r < nrow)%nat -> (f < nchan)%nat ->
  uvw' r 0%nat = - uvw r 0%nat -> uvw' r 1%nat = - uvw r 1%nat ->
  gaussian nsrc nrow nchan uvw' freq sp g s r f = gaussian nsrc nrow nchan uvw freq sp g' s r f.
Proof. intros Hs Hr Hf A B. rewrite !gaussian_value by auto. unfold gauss_value. rewrite A, B. f_equal. ring. Qed.
(* k times the frequency has the effect of k times the baseline *)
Theorem gaussian_scaled nsrc nrow nchan uvw uvw' freq freq' sp g g' s r f k : (s < nsrc)%nat -> (r < nrow)%nat -> (f < nchan)%nat ->
  freq' f = k * freq f -> uvw' r 0%nat = k * uvw r 0%nat -> uvw' r 1%nat = k * uvw r 1%nat ->
  gaussian nsrc nrow nchan uvw freq' sp g s r f = gaussian nsrc nrow nchan uvw' freq sp g' s r f.
Proof. intros Hs Hr Hf A B C. rewrite !gaussian_value by auto. unfold gauss_value. rewrite A, B, C. f_equal. ring. Qed.
Theorem gaussian_round nsrc nrow nchan uvw freq sp sp' g g' s r f : (s < nsrc)%nat -> (r < nrow)%nat -> (f < nchan)%nat ->
  sp s 1%nat = sp s 0%nat -> sp' s 0%nat = sp s 0%nat -> sp' s 1%nat = sp s 0%nat ->
  gaussian nsrc nrow nchan uvw freq sp g s r f = gaussian nsrc nrow nchan uvw freq sp' g' s r f.
Proof.
  intros Hs Hr Hf A B C. rewrite !gaussian_value, !gauss_value_envelope by auto. rewrite A, B, C.
  destruct (Req_EM_T (sp s 0%nat) 0); auto. unfold envelope. f_equal. f_equal. f_equal.
  set (h := sigma _). set (x := sp s 2%nat). set (y := sp' s 2%nat). set (u := uvw r 0%nat). set (v := uvw r 1%nat).
  assert (T : forall z, (h * ((u * sin z + v * cos z) * freq f / light)) ^ 2 + (h * ((u * cos z - v * sin z) * freq f / light)) ^ 2 =
    (h * freq f / light) ^ 2 * (u * u + v * v)).
  { intros z. assert (S2 := sin2_cos2 z). unfold Rsqr in S2. unfold light.
    transitivity ((h * freq f / 299792458) ^ 2 * ((u * u + v * v) * (sin z * sin z + cos z * cos z))); [field|]. rewrite S2. field. }
  now rewrite !T.
Qed.

(* ---------- wsclean spectra ---------- *)
Lemma poly_S n c x : poly (S n) c x = poly n c x + c n * x ^ (n + 1).
Proof. reflexivity. Qed.
Lemma poly_0 n c : poly n c 0 = 0.
Proof. unfold poly. transitivity (rsum n (fun _ => 0)); [|apply rsum_0]. apply rsum_ext. intros i _. cbv beta. rewrite (pow_i (i + 1)) by lia. ring. Qed.

Definition spec_body (nchan ncoeffs : nat) (I : arr R) (coeffs : arr2 R) (lp : logpoly) (ref_freq frequency : arr R) (s : nat) (sm : arr2 R) : arr2 R :=
  let rf := ref_freq s in
  if log_polynomial lp s then
    for_ nchan (fun f sm => let nu := frequency f in
      let sm := upd2 sm s f (ln (I s)) in
      let sm := for_ ncoeffs (fun c sm => upd2 sm s f (sm s f + coeffs s c * ln (nu / rf) ^ (c + 1))) sm in
      upd2 sm s f (exp (sm s f))) sm
  else for_ nchan (fun f sm => let nu := frequency f in
      let sm := upd2 sm s f (I s) in
      for_ ncoeffs (fun c sm => upd2 sm s f (sm s f + coeffs s c * (nu / rf - 1) ^ (c + 1))) sm) sm.

Lemma spec_body_frame nchan ncoeffs I coeffs lp rf freq s' sm s f : s' <> s ->
  spec_body nchan ncoeffs I coeffs lp rf freq s' sm s f = sm s f.
Proof.
  intros Ne. unfold spec_body. cbv zeta. destruct (log_polynomial lp s').
  - apply (for_frame (fun x : arr2 R => x s f)). intros i x _. rewrite upd2_neq by auto.
    rewrite (for_frame (fun x : arr2 R => x s f)); [apply upd2_neq; auto|]. intros j y _. apply upd2_neq. auto.
  - apply (for_frame (fun x : arr2 R => x s f)). intros i x _.
    rewrite (for_frame (fun x : arr2 R => x s f)); [apply upd2_neq; auto|]. intros j y _. apply upd2_neq. auto.
Qed.
Lemma spec_body_value nchan ncoeffs I coeffs lp rf freq sm s f : (f < nchan)%nat ->
  spec_body nchan ncoeffs I coeffs lp rf freq s sm s f =
  if log_polynomial lp s then exp (ln (I s) + poly ncoeffs (coeffs s) (ln (freq f / rf s)))
  else ordinary_flux ncoeffs (I s) (coeffs s) (freq f) (rf s).
Proof.
  intros Hf. unfold spec_body. cbv zeta.
  assert (IN : forall x0 v (x : arr2 R), for_ ncoeffs (fun c sm => upd2 sm s f (sm s f + coeffs s c * x0 ^ (c + 1))) (upd2 x s f v) s f = v + poly ncoeffs (coeffs s) x0).
  { intros x0 v x. transitivity (upd2 x s f v s f + poly ncoeffs (coeffs s) x0); [|now rewrite upd2_eq].
    apply (for_csum (K := RR) RR_laws (fun y : arr2 R => y s f)). intros i y _. now rewrite upd2_eq. }
  destruct (log_polynomial lp s).
  - set (v := exp _). apply (for_at (fun x : arr2 R => x s f) (fun _ => v) f); auto.
    + intros i x _ Ne. rewrite upd2_neq by auto.
      rewrite (for_frame (fun x : arr2 R => x s f)); [apply upd2_neq; auto|]. intros j y _. apply upd2_neq. auto.
    + intros x. rewrite upd2_eq. unfold v. f_equal. apply IN.
  - set (v := ordinary_flux _ _ _ _ _). apply (for_at (fun x : arr2 R => x s f) (fun _ => v) f); auto.
    + intros i x _ Ne.
      rewrite (for_frame (fun x : arr2 R => x s f)); [apply upd2_neq; auto|]. intros j y _. apply upd2_neq. auto.
    + intros x. apply IN.
Qed.

Lemma spectra_unfold n nchan ncoeffs I coeffs lp rf freq g : lp_fits n lp ->
  spectra n n n nchan ncoeffs I coeffs lp rf freq g =
  forM n (fun s sm =>
    if log_polynomial lp s then
      forM nchan (fun f sm =>
        if Rle_bool (I s) 0 then Raise ValueError else
        do! sm <- forM ncoeffs (fun c sm =>
          if Rle_bool (coeffs s c) 0 then Raise ValueError else
          Ok (upd2 sm s f (sm s f + coeffs s c * ln (freq f / rf s) ^ (c + 1)))) (upd2 sm s f (ln (I s)));
        Ok (upd2 sm s f (exp (sm s f)))) sm
    else Ok (spec_body nchan ncoeffs I coeffs (LScalar false) rf freq s sm)) g.
Proof.
  intros H. unfold spectra. rewrite !Nat.eqb_refl. cbn [andb negb].
  assert (E : check_log_poly_shape n lp = Ok tt).
  { destruct lp; cbn in *; auto. subst. now rewrite Nat.eqb_refl. }
  rewrite E. reflexivity.
Qed.
Lemma spectra_pure n nchan ncoeffs I coeffs lp rf freq g : lp_fits n lp ->
  (forall s, (s < n)%nat -> accepted ncoeffs (log_polynomial lp s) (I s) (coeffs s)) ->
  spectra n n n nchan ncoeffs I coeffs lp rf freq g = Ok (for_ n (spec_body nchan ncoeffs I coeffs lp rf freq) g).
Proof.
  intros HL HA. rewrite spectra_unfold by auto. apply forM_pure. intros s sm Hs. specialize (HA s Hs). unfold spec_body.
  destruct (log_polynomial lp s); [|reflexivity]. destruct (HA eq_refl) as (HI & HC).
  apply forM_pure. intros f x Hf. destruct (Rle_bool_spec (I s) 0); [lra|].
  rewrite (forM_pure ncoeffs _ (fun c sm => upd2 sm s f (sm s f + coeffs s c * ln (freq f / rf s) ^ (c + 1)))); [reflexivity|].
  intros c y Hc. destruct (Rle_bool_spec (coeffs s c) 0) as [Z|]; [|reflexivity]. specialize (HC c Hc). lra.
Qed.
Theorem spectra_value n nchan ncoeffs I coeffs lp rf freq g : lp_fits n lp ->
  (forall s, (s < n)%nat -> accepted ncoeffs (log_polynomial lp s) (I s) (coeffs s)) ->
  exists sm, spectra n n n nchan ncoeffs I coeffs lp rf freq g = Ok sm /\
    forall s f, (s < n)%nat -> (f < nchan)%nat ->
      sm s f = component_flux ncoeffs (log_polynomial lp s) (I s) (coeffs s) (freq f) (rf s).
Proof.
  intros HL HA. eexists. split; [apply spectra_pure; auto|]. intros s f Hs Hf. set (v := component_flux _ _ _ _ _ _).
  apply (for_at (fun x : arr2 R => x s f) (fun _ => v) s); auto.
  - intros i x _ Ne. apply spec_body_frame. auto.
  - intros x. rewrite spec_body_value by auto. unfold v, component_flux, log_flux. specialize (HA s Hs).
    destruct (log_polynomial lp s); auto. rewrite exp_plus, exp_ln; auto. apply HA. auto.
Qed.
Lemma spectra_log_cases ncoeffs (I : arr R) (coeffs : arr2 R) (rf freq : arr R) s (sm : arr2 R) f :
  let body := (if Rle_bool (I s) 0 then Raise ValueError else
        do! sm <- forM ncoeffs (fun c sm =>
          if Rle_bool (coeffs s c) 0 then Raise ValueError else
          Ok (upd2 sm s f (sm s f + coeffs s c * ln (freq f / rf s) ^ (c + 1)))) (upd2 sm s f (ln (I s)));
        Ok (upd2 sm s f (exp (sm s f)))) in
  ((exists x, body = Ok x) \/ body = Raise ValueError) /\
  (~ accepted ncoeffs true (I s) (coeffs s) -> body = Raise ValueError).
Proof.
  cbv zeta. destruct (Rle_bool_spec (I s) 0) as [Z|Z]; auto.
  destruct (Classical_Prop.classic (forall k, (k < ncoeffs)%nat -> 0 < coeffs s k)) as [HC|HC].
  - split.
    + left. rewrite (forM_pure ncoeffs _ (fun c sm => upd2 sm s f (sm s f + coeffs s c * ln (freq f / rf s) ^ (c + 1)))); [eexists; reflexivity|].
      intros c y Hc. destruct (Rle_bool_spec (coeffs s c) 0) as [Z'|]; [|reflexivity]. specialize (HC c Hc). lra.
    + intros N. destruct N. intros _. split; [lra|auto].
  - assert (E : exists k, (k < ncoeffs)%nat /\ coeffs s k <= 0).
    { apply Classical_Pred_Type.not_all_ex_not in HC. destruct HC as (k & Hk). apply Classical_Prop.imply_to_and in Hk. exists k. split; [tauto|lra]. }
    destruct E as (k & Hk & Lk).
    assert (G : forall x : arr2 R, forM ncoeffs (fun c sm => if Rle_bool (coeffs s c) 0 then Raise ValueError else
          Ok (upd2 sm s f (sm s f + coeffs s c * ln (freq f / rf s) ^ (c + 1)))) x = Raise ValueError).
    { intros x. apply (forM_raise ncoeffs _ ValueError k); auto.
      - intros y. destruct (Rle_bool_spec (coeffs s k) 0); auto. contradiction.
      - intros i y _. destruct (Rle_bool (coeffs s i) 0); eauto. }
    rewrite G. cbn. auto.
Qed.
Theorem spectra_raises n nchan ncoeffs I coeffs lp rf freq g s : lp_fits n lp -> (0 < nchan)%nat -> (s < n)%nat ->
  ~ accepted ncoeffs (log_polynomial lp s) (I s) (coeffs s) ->
  spectra n n n nchan ncoeffs I coeffs lp rf freq g = Raise ValueError.
Proof.
  intros HL Hn Hs HA. rewrite spectra_unfold by auto. apply (forM_raise n _ ValueError s); auto.
  - intros sm. destruct (log_polynomial lp s); [|destruct HA; intros X; discriminate].
    apply (forM_raise nchan _ ValueError 0%nat); auto.
    + intros x. apply (spectra_log_cases ncoeffs I coeffs rf freq s x 0%nat). auto.
    + intros f x _. apply (spectra_log_cases ncoeffs I coeffs rf freq s x f).
  - intros i sm Hi. destruct (log_polynomial lp i); [|left; eauto].
    assert (G : forall m (x : arr2 R), let body := fun f sm =>
        (if Rle_bool (I i) 0 then Raise ValueError else
        do! sm <- forM ncoeffs (fun c sm =>
          if Rle_bool (coeffs i c) 0 then Raise ValueError else
          Ok (upd2 sm i f (sm i f + coeffs i c * ln (freq f / rf i) ^ (c + 1)))) (upd2 sm i f (ln (I i)));
        Ok (upd2 sm i f (exp (sm i f)))) in (exists y, forM m body x = Ok y) \/ forM m body x = Raise ValueError).
    { intros m x body. induction m as [|m IH]; [left; exists x; reflexivity|]. cbn [forM].
      destruct IH as [(y & ->)| ->]; [|auto]. cbn [bind]. apply (spectra_log_cases ncoeffs I coeffs rf freq i y m). }
    apply G.
Qed.
Theorem spectra_shapes nI ncf nrf nchan ncoeffs I coeffs lp rf freq g :
  nI <> ncf \/ ncf <> nrf \/ ~ lp_fits ncf lp -> spectra nI ncf nrf nchan ncoeffs I coeffs lp rf freq g = Raise ValueError.
Proof.
  intros H. unfold spectra. destruct (Nat.eqb_spec nI ncf); cbn [andb negb]; auto. destruct (Nat.eqb_spec ncf nrf); cbn [negb]; auto.
  destruct lp as [b|k a]; cbn in *; [tauto|]. destruct (Nat.eqb_spec ncf k); auto. subst. tauto.
Qed.
Theorem component_flux_ref n is_log I c nu : nu <> 0 -> component_flux n is_log I c nu nu = I.
Proof.
  intros H. unfold component_flux, log_flux, ordinary_flux. unfold Rdiv. rewrite Rinv_r by auto. rewrite ln_1.
  replace (1 - 1) with 0 by ring. rewrite poly_0, exp_0. destruct is_log; ring.
Qed.
(* the numpy reference functions *)
Theorem spectra_reference n nchan ncoeffs I coeffs lp rf freq g :
  (forall s, (s < n)%nat -> accepted ncoeffs (lp s) (I s) (coeffs s)) ->
  exists sm, spectra n n n nchan ncoeffs I coeffs (LArray n lp) rf freq g = Ok sm /\
    forall s f, (s < n)%nat -> (f < nchan)%nat ->
      sm s f = if lp s then log_spectral_model ncoeffs I coeffs lp freq rf s f else ordinary_spectral_model ncoeffs I coeffs freq rf s f.
Proof.
  intros HA. destruct (spectra_value n nchan ncoeffs I coeffs (LArray n lp) rf freq g eq_refl HA) as (sm & E & V).
  exists sm. split; auto. intros s f Hs Hf. rewrite V by auto. cbn [log_polynomial]. unfold component_flux. specialize (HA s Hs).
  unfold log_spectral_model. destruct (lp s) eqn:El; [|reflexivity]. unfold log_flux. rewrite exp_plus, exp_ln by (apply HA; auto). reflexivity.
Qed.
