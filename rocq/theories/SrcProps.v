(* C33 wsclean prediction, C52 Gaussian shapes, C53 spectral models, C54 wsclean spectra *)
From Coq Require Import Reals Lra String.
From Verif Require Import Prelude PreludeFacts CRing CplxR RimeModel RimeSpec DftModel DftSpec DftProofs SrcModel SrcSpec SrcProofs SrcProofs2 SrcProofs3.
Open Scope R_scope.

(* ---------- C52 ---------- *)
Theorem C52_envelope : forall nsrc nrow nchan uvw freq sp g s r f, (s < nsrc)%nat -> (r < nrow)%nat -> (f < nchan)%nat ->
  (sp s 0%nat <> 0 -> gaussian nsrc nrow nchan uvw freq sp g s r f =
     envelope (sp s 0%nat) (sp s 1%nat) (sp s 2%nat) (uvw r 0%nat) (uvw r 1%nat) (freq f)) /\
  (sp s 0%nat = 0 -> gaussian nsrc nrow nchan uvw freq sp g s r f = 1).
Proof. exact gaussian_envelope. Qed.
Theorem C52_range : forall nsrc nrow nchan uvw freq sp g s r f, (s < nsrc)%nat -> (r < nrow)%nat -> (f < nchan)%nat ->
  0 < gaussian nsrc nrow nchan uvw freq sp g s r f <= 1.
Proof. exact gaussian_range. Qed.
Theorem C52_origin : forall nsrc nrow nchan uvw freq sp g s r f, (s < nsrc)%nat -> (r < nrow)%nat -> (f < nchan)%nat ->
  uvw r 0%nat = 0 -> uvw r 1%nat = 0 -> gaussian nsrc nrow nchan uvw freq sp g s r f = 1.
Proof. exact gaussian_origin. Qed.
Theorem C52_even : forall nsrc nrow nchan uvw uvw' freq sp g g' s r f, (s < nsrc)%nat -> (r < nrow)%nat -> (f < nchan)%nat ->
  uvw' r 0%nat = - uvw r 0%nat -> uvw' r 1%nat = - uvw r 1%nat ->
  gaussian nsrc nrow nchan uvw' freq sp g s r f = gaussian nsrc nrow nchan uvw freq sp g' s r f.
Proof. exact gaussian_even. Qed.
Theorem C52_frequency_scaling : forall nsrc nrow nchan uvw uvw' freq freq' sp g g' s r f k, (s < nsrc)%nat -> (r < nrow)%nat -> (f < nchan)%nat ->
  freq' f = k * freq f -> uvw' r 0%nat = k * uvw r 0%nat -> uvw' r 1%nat = k * uvw r 1%nat ->
  gaussian nsrc nrow nchan uvw freq' sp g s r f = gaussian nsrc nrow nchan uvw' freq sp g' s r f.
Proof. exact gaussian_scaled. Qed.
Theorem C52_round : forall nsrc nrow nchan uvw freq sp sp' g g' s r f, (s < nsrc)%nat -> (r < nrow)%nat -> (f < nchan)%nat ->
  sp s 1%nat = sp s 0%nat -> sp' s 0%nat = sp s 0%nat -> sp' s 1%nat = sp s 0%nat ->
  gaussian nsrc nrow nchan uvw freq sp g s r f = gaussian nsrc nrow nchan uvw freq sp' g' s r f.
Proof. exact gaussian_round. Qed.
(* half power: a baseline for which the Gaussian has fallen to a half *)
Example C52_nontrivial : forall g, gaussian 1 1 1 (fun _ i => match i with O => 1 | _ => 0 end) (fun _ => light) (fun _ i => match i with S (S _) => 0 | _ => fwhm end) g 0%nat 0%nat 0%nat
  = exp (- (2 * PI ^ 2)).
Proof.
  intros g. assert (F : 0 < fwhm).
  { unfold fwhm. assert (0 < ln 2) by (generalize ln_lt_2; lra). assert (0 < sqrt (2 * ln 2)) by (apply sqrt_lt_R0; lra). lra. }
  rewrite (proj1 (gaussian_envelope 1 1 1 (fun _ i => match i with O => 1 | _ => 0 end) (fun _ => light) (fun _ i => match i with S (S _) => 0 | _ => fwhm end) g 0%nat 0%nat 0%nat ltac:(lia) ltac:(lia) ltac:(lia))) by lra.
  unfold envelope, sigma. fold fwhm. rewrite sin_0, cos_0. f_equal. unfold light. field. lra.
Qed.

(* ---------- C54 ---------- *)
Theorem C54_values : forall n nchan ncoeffs I coeffs lp rf freq g, lp_fits n lp ->
  (forall s, (s < n)%nat -> accepted ncoeffs (lp_at lp s) (I s) (coeffs s)) ->
  exists sm, spectra n n n nchan ncoeffs I coeffs lp rf freq g = Ok sm /\
    forall s f, (s < n)%nat -> (f < nchan)%nat ->
      sm s f = component_flux ncoeffs (lp_at lp s) (I s) (coeffs s) (freq f) (rf s).
Proof. exact spectra_value. Qed.
Theorem C54_raises : forall n nchan ncoeffs I coeffs lp rf freq g s, lp_fits n lp -> (0 < nchan)%nat -> (s < n)%nat ->
  ~ accepted ncoeffs (lp_at lp s) (I s) (coeffs s) ->
  spectra n n n nchan ncoeffs I coeffs lp rf freq g = Raise ValueError.
Proof. exact spectra_raises. Qed.
Theorem C54_shapes : forall nI ncf nrf nchan ncoeffs I coeffs lp rf freq g,
  nI <> ncf \/ ncf <> nrf \/ ~ lp_fits ncf lp -> spectra nI ncf nrf nchan ncoeffs I coeffs lp rf freq g = Raise ValueError.
Proof. exact spectra_shapes. Qed.
Theorem C54_reference_frequency : forall n nchan ncoeffs I coeffs lp rf freq g sm s f, lp_fits n lp ->
  (forall s, (s < n)%nat -> accepted ncoeffs (lp_at lp s) (I s) (coeffs s)) ->
  spectra n n n nchan ncoeffs I coeffs lp rf freq g = Ok sm -> (s < n)%nat -> (f < nchan)%nat -> freq f = rf s -> rf s <> 0 ->
  sm s f = I s.
Proof.
  intros n nchan ncoeffs I coeffs lp rf freq g sm s f HL HA E Hs Hf EF N.
  destruct (spectra_value n nchan ncoeffs I coeffs lp rf freq g HL HA) as (sm' & E' & V). rewrite E in E'. injection E' as <-.
  rewrite V by auto. rewrite EF. now apply component_flux_ref.
Qed.
Theorem C54_numpy_reference : forall n nchan ncoeffs I coeffs lp rf freq g,
  (forall s, (s < n)%nat -> accepted ncoeffs (lp s) (I s) (coeffs s)) ->
  exists sm, spectra n n n nchan ncoeffs I coeffs (LArray n lp) rf freq g = Ok sm /\
    forall s f, (s < n)%nat -> (f < nchan)%nat ->
      sm s f = if lp s then log_spectral_model ncoeffs I coeffs lp freq rf s f else ordinary_spectral_model ncoeffs I coeffs freq rf s f.
Proof. exact spectra_reference. Qed.
(* the reference accepts a falling spectrum (one coefficient, -1) of positive flux, the compiled function does not *)
Theorem C54_negative_coefficient_refuted : forall g, exists I coeffs rf freq,
  0 < I 0%nat /\ 0 < freq 0%nat / rf 0%nat /\
  log_spectral_model 1 I coeffs (fun _ => true) freq rf 0%nat 0%nat = log_flux 1 (I 0%nat) (coeffs 0%nat) (freq 0%nat) (rf 0%nat) /\
  spectra 1 1 1 1 1 I coeffs (LArray 1 (fun _ => true)) rf freq g = Raise ValueError.
Proof.
  intros g. exists (fun _ => 1), (fun _ _ => -1), (fun _ => 1), (fun _ => 2). repeat split; try lra.
  - unfold log_spectral_model, log_flux. rewrite exp_plus, exp_ln by lra. reflexivity.
  - apply (spectra_raises 1 1 1 _ _ (LArray 1 (fun _ => true)) _ _ _ 0%nat); cbn; auto.
    intros A. destruct (A eq_refl) as (_ & B). specialize (B 0%nat ltac:(lia)). lra.
Qed.
Example C54_mixed : forall s, (s < 2)%nat -> accepted 2 (lp_at (LArray 2 (fun s => Nat.eqb s 0)) s) (if Nat.eqb s 0 then 1 else -1) (fun k => if Nat.eqb s 0 then 2 else -3).
Proof. intros [|[|s]] Hs H; [| |lia]; cbn in *; [split; intros; lra|discriminate]. Qed.

(* ---------- C53 ---------- *)
Theorem C53_values : forall nsrc nchan nspi d stokes spi rf freq bs g, bs <> BOther -> bs <> BList [] ->
  (forall p, (p < npol_of d)%nat -> exists b pos c, base_at bs p b /\ curve b pos c) ->
  exists m, spectral_model nsrc nchan nspi d d stokes spi rf freq bs g = Ok m /\
    forall s f p b pos c, (s < nsrc)%nat -> (f < nchan)%nat -> (p < npol_of d)%nat ->
      base_at bs p b -> curve b pos c -> (pos = true -> 0 < stokes s p) ->
      m s f p = c nspi (stokes s p) (fun si => spi s si p) (freq f) (rf s).
Proof. exact spectral_value. Qed.
Theorem C53_reference_frequency : forall nsrc nchan nspi d stokes spi rf freq bs g m s f p b pos c, bs <> BList [] ->
  (forall p, (p < npol_of d)%nat -> exists b pos c, base_at bs p b /\ curve b pos c) ->
  spectral_model nsrc nchan nspi d d stokes spi rf freq bs g = Ok m ->
  (s < nsrc)%nat -> (f < nchan)%nat -> (p < npol_of d)%nat -> base_at bs p b -> curve b pos c -> (pos = true -> 0 < stokes s p) ->
  freq f = rf s -> rf s <> 0 -> m s f p = stokes s p.
Proof.
  intros nsrc nchan nspi d stokes spi rf freq bs g m s f p b pos c B HV E Hs Hf Hp Ab Cb HI EF N.
  assert (A : bs <> BOther) by (intros ->; inversion Ab).
  destruct (spectral_value nsrc nchan nspi d stokes spi rf freq bs g A B HV) as (m' & E' & V). rewrite E in E'. injection E' as <-.
  rewrite (V s f p b pos c) by auto. rewrite EF. now apply (curve_at_reference b pos c).
Qed.
Theorem C53_unknown_base : forall nsrc nchan nspi d stokes spi rf freq bs g p b, (p < npol_of d)%nat -> base_at bs p b ->
  (forall pos c, ~ curve b pos c) -> spectral_model nsrc nchan nspi d d stokes spi rf freq bs g = Raise ValueError.
Proof. exact spectral_unknown. Qed.
Theorem C53_dimensions : forall nsrc nchan nspi d d' stokes spi rf freq bs g, bs <> BOther -> d <> d' ->
  spectral_model nsrc nchan nspi d d' stokes spi rf freq bs g = Raise ValueError.
Proof. exact spectral_pols. Qed.
Theorem C53_numpy_reference : forall nsrc nchan nspi d stokes spi rf freq bs g, base_fits bs (npol_of d) ->
  agree nsrc nchan (npol_of d) (spectral_model nsrc nchan nspi d d stokes spi rf freq bs g)
    (numpy_spectral_model nspi d stokes spi rf freq bs).
Proof. exact compiled_reference. Qed.
(* a list of bases longer than the number of polarisations: the compiled function ignores the rest, the reference raises *)
Theorem C53_long_list_refuted : forall stokes spi rf freq g, exists m,
  spectral_model 1 1 1 None None stokes spi rf freq (BList [BStr "std"%string; BStr "std"%string]) g = Ok m /\
  numpy_spectral_model 1 None stokes spi rf freq (BList [BStr "std"%string; BStr "std"%string]) = Raise IndexError.
Proof. intros. eexists. split; reflexivity. Qed.
Theorem C53_chunks : forall src chan pol nspi stokes spi rf freq bs g g' s f p,
  (exists b, bs = BOne b) \/ (pol = [list_sum pol] /\ bs <> BOther) ->
  (s < list_sum src)%nat -> (f < list_sum chan)%nat -> (p < list_sum pol)%nat ->
  dask_spectral_model src chan [nspi] pol stokes spi rf freq bs g s f p =
  do! m <- spectral_model (list_sum src) (list_sum chan) nspi (Some (list_sum pol)) (Some (list_sum pol)) stokes spi rf freq bs g';
  Ok (m s f p).
Proof. exact dask_spectral_eq. Qed.
(* bases given as a list and polarisations in two chunks: the second chunk uses the first base *)
Theorem C53_pol_chunks_refuted : forall g, exists stokes spi rf freq m,
  spectral_model 1 1 2 (Some 2%nat) (Some 2%nat) stokes spi rf freq (BList [BStr "std"%string; BStr "log"%string]) g = Ok m /\
  (forall s p, 0 < stokes s p) /\ rf 0%nat = 1 /\ freq 0%nat = exp 2 /\
  m 0%nat 0%nat 1%nat = exp 6 /\
  dask_spectral_model [1%nat] [1%nat] [2%nat] [1%nat; 1%nat] stokes spi rf freq (BList [BStr "std"%string; BStr "log"%string]) g 0%nat 0%nat 1%nat = Ok (exp 4).
Proof.
  intros g. set (bs := BList [BStr "std"%string; BStr "log"%string]).
  destruct (spectral_value 1 1 2 (Some 2%nat) (fun _ _ => 1) (fun _ _ _ => 1) (fun _ => 1) (fun _ => exp 2) bs g) as (m & E & V); try discriminate.
  { intros [|[|p]] Hp; [| |cbn in Hp; lia]; do 3 eexists; (split; [apply at_list; reflexivity|]); constructor. }
  exists (fun _ _ => 1), (fun _ _ _ => 1), (fun _ => 1), (fun _ => exp 2), m. split; [exact E|]. repeat split; auto; try (intros; lra).
  - rewrite (V 0 0 1 (BStr "log"%string) true ln_curve)%nat; try (cbn; lia); try constructor; auto; try lra.
    unfold ln_curve, poly, rsum. cbn [csum RR cadd cmul c0 car]. unfold Rdiv. rewrite Rinv_1, Rmult_1_r, ln_exp.
    rewrite Rmult_1_l. f_equal. cbn. ring.
  - unfold dask_spectral_model. cbn [List.length Nat.eqb negb hd locate Nat.ltb Nat.leb Nat.add].
    destruct (spectral_value 1 1 2 (Some 1%nat) (fun _ _ => 1) (fun _ _ _ => 1) (fun _ => 1) (fun _ => exp 2) bs g) as (m' & E' & V'); try discriminate.
    { intros [|p] Hp; [|cbn in Hp; lia]; do 3 eexists; (split; [apply at_list; reflexivity|]); constructor. }
    rewrite E'. cbn [bind Nat.sub]. f_equal.
    rewrite (V' 0 0 0 (BStr "std"%string) false power_law)%nat; try (cbn; lia); try constructor; auto; try (intros; discriminate).
    unfold power_law, Rpower, rsum. cbn [csum RR cadd cmul c0 car]. unfold Rdiv. rewrite Rinv_1, Rmult_1_r, ln_exp. rewrite Rmult_1_l. f_equal. ring.
Qed.
Theorem C53_spi_chunks : forall src chan pol spi_chunks stokes spi rf freq bs g s f p, List.length spi_chunks <> 1%nat ->
  dask_spectral_model src chan spi_chunks pol stokes spi rf freq bs g s f p = Raise ValueError.
Proof. intros. unfold dask_spectral_model. destruct (Nat.eqb_spec (List.length spi_chunks) 1); [contradiction|reflexivity]. Qed.
Example C53_bases : forall p, (p < 4)%nat -> exists b pos c, base_at (BList [BStr "std"%string; BStr "log"%string]) p b /\ curve b pos c.
Proof.
  intros [|[|p]] Hp.
  - exists (BStr "std"%string), false, power_law. split; [apply at_list; reflexivity|constructor].
  - exists (BStr "log"%string), true, ln_curve. split; [apply at_list; reflexivity|constructor].
  - exists (BStr "log"%string), true, ln_curve. split; [apply at_last; [cbn; lia|reflexivity|discriminate]|constructor].
Qed.

(* ---------- C33 ---------- *)
Theorem C33_values : forall nsrc nrow nchan ncoeffs uvw lm kind flux coeffs lp rf gauss freq g, lp_fits nsrc lp ->
  (forall s, (s < nsrc)%nat -> acceptable ncoeffs kind flux coeffs lp s) ->
  exists V, wsclean_predict nsrc nrow nchan ncoeffs uvw lm kind flux coeffs lp rf gauss freq g = Ok V /\
    forall r f, (r < nrow)%nat -> (f < nchan)%nat ->
      V r f 0%nat = csum nsrc (component_vis lm uvw gauss kind freq (flux_of ncoeffs flux coeffs lp rf freq) r f).
Proof. exact predict_value. Qed.
Theorem C33_raises : forall nsrc nrow nchan ncoeffs uvw lm kind flux coeffs lp rf gauss freq g s, lp_fits nsrc lp ->
  (0 < nchan)%nat -> (s < nsrc)%nat -> ~ acceptable ncoeffs kind flux coeffs lp s ->
  wsclean_predict nsrc nrow nchan ncoeffs uvw lm kind flux coeffs lp rf gauss freq g = Raise ValueError.
Proof. exact predict_raises. Qed.
Theorem C33_superposition : forall n1 n2 nrow nchan ncoeffs uvw lm kind flux coeffs lp rf gauss freq g, lp_fits (n1 + n2) lp ->
  (forall s, (s < n1 + n2)%nat -> acceptable ncoeffs kind flux coeffs lp s) ->
  exists A B V,
    wsclean_predict n1 nrow nchan ncoeffs uvw lm kind flux coeffs (head_lp n1 lp) rf gauss freq g = Ok A /\
    wsclean_predict n2 nrow nchan ncoeffs uvw (fun s => lm (n1 + s)%nat) (fun s => kind (n1 + s)%nat) (fun s => flux (n1 + s)%nat)
      (fun s => coeffs (n1 + s)%nat) (tail_lp n1 n2 lp) (fun s => rf (n1 + s)%nat) (fun s => gauss (n1 + s)%nat) freq g = Ok B /\
    wsclean_predict (n1 + n2) nrow nchan ncoeffs uvw lm kind flux coeffs lp rf gauss freq g = Ok V /\
    forall r f, (r < nrow)%nat -> (f < nchan)%nat -> V r f 0%nat = cadd (A r f 0%nat) (B r f 0%nat).
Proof. exact predict_superposes. Qed.
Theorem C33_conjugate_symmetry : forall nsrc nrow nchan ncoeffs uvw uvw' lm kind flux coeffs lp rf gauss freq g, lp_fits nsrc lp ->
  (forall s, (s < nsrc)%nat -> acceptable ncoeffs kind flux coeffs lp s) ->
  (forall r i, (r < nrow)%nat -> (i < 3)%nat -> uvw' r i = - uvw r i) ->
  exists V V', wsclean_predict nsrc nrow nchan ncoeffs uvw lm kind flux coeffs lp rf gauss freq g = Ok V /\
    wsclean_predict nsrc nrow nchan ncoeffs uvw' lm kind flux coeffs lp rf gauss freq g = Ok V' /\
    forall r f, (r < nrow)%nat -> (f < nchan)%nat -> V' r f 0%nat = cconj (V r f 0%nat).
Proof. exact predict_conj. Qed.
Theorem C33_zero_extent : forall nsrc nrow nchan ncoeffs uvw lm kind kind' flux coeffs lp rf gauss freq g, lp_fits nsrc lp ->
  (forall s, (s < nsrc)%nat -> acceptable ncoeffs kind flux coeffs lp s) ->
  (forall s, (s < nsrc)%nat -> kind' s = kind s \/ gauss s 0%nat = 0 /\ known_kind (kind' s)) ->
  exists V V', wsclean_predict nsrc nrow nchan ncoeffs uvw lm kind flux coeffs lp rf gauss freq g = Ok V /\
    wsclean_predict nsrc nrow nchan ncoeffs uvw lm kind' flux coeffs lp rf gauss freq g = Ok V' /\
    forall r f, (r < nrow)%nat -> (f < nchan)%nat -> V' r f 0%nat = V r f 0%nat.
Proof. exact predict_point_gaussian. Qed.
Theorem C33_chunks : forall src rows chan ncoeffs uvw lm kind flux coeffs lp rf gauss freq g g' r f,
  (r < list_sum rows)%nat -> (f < list_sum chan)%nat ->
  dask_wsclean_predict src rows chan [ncoeffs] uvw lm kind flux coeffs lp rf gauss freq g r f =
  do! V <- wsclean_predict (list_sum src) (list_sum rows) (list_sum chan) ncoeffs uvw lm kind flux coeffs (LArray (list_sum src) lp) rf gauss freq g';
  Ok (V r f 0%nat).
Proof. exact dask_predict_eq. Qed.
(* coefficients in two chunks: the second one is dropped *)
Theorem C33_coefficient_chunks_refuted : forall g, exists uvw lm kind flux coeffs lp rf gauss freq V,
  wsclean_predict 1 1 1 2 uvw lm kind flux coeffs (LArray 1 lp) rf gauss freq g = Ok V /\
  V 0%nat 0%nat 0%nat = ofR 3 /\
  dask_wsclean_predict [1%nat] [1%nat] [1%nat] [1%nat; 1%nat] uvw lm kind flux coeffs lp rf gauss freq g 0%nat 0%nat = Ok (ofR 2).
Proof.
  intros g. set (z := fun _ _ : nat => 0). set (kind := fun _ : nat => "POINT"%string).
  assert (AC : forall n s, (s < 1)%nat -> acceptable n kind (fun _ => 1) (fun _ _ => 1) (LArray 1 (fun _ => false)) s).
  { intros n s _. split; [left; reflexivity|discriminate]. }
  assert (D0 : src_delay z z (fun _ => 2) 0%nat 0%nat 0%nat = 0) by (unfold src_delay, delay, z, light; field).
  destruct (predict_value 1 1 1 2 z z kind (fun _ => 1) (fun _ _ => 1) (LArray 1 (fun _ => false)) (fun _ => 1) z (fun _ => 2) g eq_refl (AC 2%nat)) as (V & E & VV).
  exists z, z, kind, (fun _ => 1), (fun _ _ => 1), (fun _ => false), (fun _ => 1), z, (fun _ => 2), V. split; [exact E|]. split.
  - rewrite VV by lia. cbn [csum]. unfold component_vis. rewrite D0, cis_0. unfold ofR, flux_of, component_flux, ordinary_flux, poly, rsum, extent, kind. cbn. f_equal; field.
  - transitivity (dask_wsclean_predict [1%nat] [1%nat] [1%nat] [1%nat] z z kind (fun _ => 1) (fun _ _ => 1) (fun _ => false) (fun _ => 1) z (fun _ => 2) g 0%nat 0%nat); [reflexivity|].
    rewrite (dask_predict_eq [1%nat] [1%nat] [1%nat] 1 z z kind (fun _ => 1) (fun _ _ => 1) (fun _ => false) (fun _ => 1) z (fun _ => 2) g g 0%nat 0%nat) by (cbn; lia).
    destruct (predict_value 1 1 1 1 z z kind (fun _ => 1) (fun _ _ => 1) (LArray 1 (fun _ => false)) (fun _ => 1) z (fun _ => 2) g eq_refl (AC 1%nat)) as (V' & E' & VV').
    cbn [list_sum fold_right Nat.add]. rewrite E'. cbn [bind]. f_equal. rewrite VV' by lia. cbn [csum]. unfold component_vis. rewrite D0, cis_0.
    unfold ofR, flux_of, component_flux, ordinary_flux, poly, rsum, extent, kind. cbn. f_equal; field.
Qed.
Example C33_acceptable : forall s, (s < 2)%nat -> acceptable 1 (fun s => if Nat.eqb s 0 then "POINT"%string else "GAUSSIAN"%string)
  (fun s => if Nat.eqb s 0 then -1 else 1) (fun _ _ => 2) (LArray 2 (fun s => Nat.eqb s 1)) s.
Proof. intros [|[|s]] Hs; [| |lia]; (split; [cbn; unfold known_kind; auto|]); intros H; cbn in *; [discriminate|split; intros; lra]. Qed.

Print Assumptions C52_envelope.
Print Assumptions C52_range.
Print Assumptions C52_origin.
Print Assumptions C52_even.
Print Assumptions C52_frequency_scaling.
Print Assumptions C52_round.
Print Assumptions C54_values.
Print Assumptions C54_raises.
Print Assumptions C54_shapes.
Print Assumptions C54_reference_frequency.
Print Assumptions C54_numpy_reference.
Print Assumptions C54_negative_coefficient_refuted.
Print Assumptions C53_values.
Print Assumptions C53_reference_frequency.
Print Assumptions C53_unknown_base.
Print Assumptions C53_dimensions.
Print Assumptions C53_numpy_reference.
Print Assumptions C53_long_list_refuted.
Print Assumptions C53_chunks.
Print Assumptions C53_pol_chunks_refuted.
Print Assumptions C53_spi_chunks.
Print Assumptions C33_values.
Print Assumptions C33_raises.
Print Assumptions C33_superposition.
Print Assumptions C33_conjugate_symmetry.
Print Assumptions C33_zero_extent.
Print Assumptions C33_chunks.
Print Assumptions C33_coefficient_chunks_refuted.
