(* C42, C43: prediction with corruption, and the phase-only solver *)
From Coq Require Import Reals Lra.
From Verif Require Import Prelude CRing CField CplxR CplxF NumpyModel AvgModel PredictModel PredictSpec CalModel CalSpec CalProofs CalProofs2
  RimeSpec Cal2Model Cal2Spec Cal2Proofs Cal2Proofs2 Cal2Proofs3.
Open Scope nat_scope.

(* C42.  Every row of a time bin is the sum over directions of G_p (B exp(-i delay) / n) G_q^H; other rows are zero. *)
Theorem C42_values : forall n nrow tbi tbc ant1 ant2 (g : gain_arr RCF) (m : image_arr) uvw freq lm mode tmin,
  check_type (j_ndim g) (i_ndim m) VT_model = Ok mode ->
  0 < n -> is_min n tbi tmin -> bins_disjoint n tbi tmin tbc ->
  exists tbi' out, compute_and_corrupt_vis n nrow (i_chan m) tbi tbc ant1 ant2 g m uvw freq lm = Ok (tbi', out) /\
    (forall t, tbi' t = (tbi t - tmin)%Z) /\
    v_ndim out = mode_ndim mode /\ v_row out = nrow /\ v_chan out = i_chan m /\ v_corr out = i_corr m /\
    forall r f, f < i_chan m ->
      (forall t, t < n -> in_bin tbi tmin tbc t r ->
         jeq (mode_full mode) (i_corr m) (v_at out r f)
           (jsum (i_dir m) (fun s => gsandwich mode (j_at g t (ant1 r) f s) (predicted m uvw freq lm t r f s) (j_at g t (ant2 r) f s)))) /\
      ((forall t, t < n -> ~ in_bin tbi tmin tbc t r) ->
         jeq (mode_full mode) (i_corr m) (v_at out r f) jzero).
Proof. exact cac_spec. Qed.
(* it is corrupt_vis on the predicted model visibilities *)
Theorem C42_is_corrupt_vis_of_prediction : forall n nrow tbi tbc ant1 ant2 (g : gain_arr RCF) (m : image_arr) uvw freq lm (pm : model_arr RCF) mode tmin,
  check_type (j_ndim g) (i_ndim m) VT_model = Ok mode ->
  0 < n -> is_min n tbi tmin -> bins_disjoint n tbi tmin tbc ->
  m_ndim pm = i_ndim m -> m_row pm = nrow -> m_chan pm = i_chan m -> m_dir pm = i_dir m -> m_corr pm = i_corr m ->
  (forall t r f s i j, t < n -> in_bin tbi tmin tbc t r -> f < i_chan m -> s < i_dir m -> m_at pm r f s i j = predicted m uvw freq lm t r f s i j) ->
  exists tbi' out out', compute_and_corrupt_vis n nrow (i_chan m) tbi tbc ant1 ant2 g m uvw freq lm = Ok (tbi', out) /\
    corrupt_vis n tbi tbc ant1 ant2 g pm = Ok (tbi', out') /\
    v_ndim out = v_ndim out' /\ v_row out = v_row out' /\ v_chan out = v_chan out' /\ v_corr out = v_corr out' /\
    forall r f, f < i_chan m -> jeq (mode_full mode) (i_corr m) (v_at out r f) (v_at out' r f).
Proof. exact cac_corrupt. Qed.
Theorem C42_chunks : forall n nrow tbi tbc ant1 ant2 (g : gain_arr RCF) (m : image_arr) uvw freq lm mode tmin ch nant uvw_last lm_dir lm_last,
  check_type (j_ndim g) (i_ndim m) VT_model = Ok mode ->
  0 < n -> is_min n tbi tmin -> bins_disjoint n tbi tmin tbc ->
  hd 0 (cc_jant ch) = nant -> hd 0 (cc_jdir ch) = j_dir g -> hd 0 (cc_mdir ch) = i_dir m ->
  hd 0 uvw_last = 3 -> hd 0 lm_dir = i_dir m -> hd 0 lm_last = 2 ->
  list_sum (cc_chan ch) = i_chan m ->
  exists tbi' whole blocks, compute_and_corrupt_vis n nrow (i_chan m) tbi tbc ant1 ant2 g m uvw freq lm = Ok (tbi', whole) /\
    dask_compute_and_corrupt ch nant uvw_last lm_dir lm_last tbi tbc ant1 ant2 g m uvw freq lm = Ok blocks /\
    forall rb, chunk_aligned n tbi tmin tbc ch rb -> forall cb, exists btbi b, blocks rb cb = Ok (btbi, b) /\
      v_row b = nth rb (cc_row ch) 0 /\ v_chan b = nth cb (cc_chan ch) 0 /\ v_ndim b = v_ndim whole /\ v_corr b = v_corr whole /\
      forall r f, r < nth rb (cc_row ch) 0 -> f < nth cb (cc_chan ch) 0 ->
        jeq (mode_full mode) (i_corr m) (v_at b r f) (v_at whole (off (cc_row ch) rb + r) (off (cc_chan ch) cb + f)).
Proof. exact dask_cac. Qed.
Theorem C42_unchunked_axes : forall tbi tbc ant1 ant2 (g : gain_arr RCF) (m : image_arr) uvw freq lm ch nant uvw_last lm_dir lm_last,
  hd 0 (cc_jant ch) <> nant \/ hd 0 (cc_jdir ch) <> j_dir g \/ hd 0 (cc_mdir ch) <> i_dir m \/ hd 0 uvw_last <> 3 \/ hd 0 lm_dir <> i_dir m \/ hd 0 lm_last <> 2 ->
  dask_compute_and_corrupt ch nant uvw_last lm_dir lm_last tbi tbc ant1 ant2 g m uvw freq lm = Raise ValueError.
Proof. exact dask_cac_checks. Qed.

(* C43.  J^H J and J^H r are the sums over the unflagged rows of the bin, from each side of the baseline. *)
Theorem C43_jhj : forall n tbi tbc ant1 ant2 (g : gain_arr RCF) (m : model_arr RCF) flag tmin use,
  0 < n -> is_min n tbi tmin -> (forall r f, use r f = true <-> ~ flagged false (m_corr m) (flag r f)) ->
  check_type (j_ndim g) (m_ndim m) VT_model = Ok DIAG_DIAG ->
  exists tbi' jhj, compute_jhj n tbi tbc ant1 ant2 g m flag = Ok (tbi', jhj) /\
    (forall t, tbi' t = (tbi t - tmin)%Z) /\
    forall t a f s c, t < j_tim g -> f < j_chan g -> s < j_dir g ->
      jhj t a f s c 0 = JHJ tbi tmin tbc ant1 ant2 use (fun r f s c => m_at m r f s c 0) (j_at g) t a f s c.
Proof. exact jhj_value. Qed.
Theorem C43_jhr : forall n tbi tbc ant1 ant2 (g : gain_arr RCF) (m : model_arr RCF) flag tmin use,
  0 < n -> is_min n tbi tmin -> (forall r f, use r f = true <-> ~ flagged false (m_corr m) (flag r f)) ->
  check_type (j_ndim g) (m_ndim m) VT_model = Ok DIAG_DIAG -> forall residual : vis_arr RCF,
  exists tbi' jhr, compute_jhr n tbi tbc ant1 ant2 g residual m flag = Ok (tbi', jhr) /\
    (forall t, tbi' t = (tbi t - tmin)%Z) /\
    forall t a f s c, t < j_tim g -> f < j_chan g -> s < j_dir g ->
      jhr t a f s c 0 = JHR tbi tmin tbc ant1 ant2 use (fun r f s c => m_at m r f s c 0) (j_at g) (fun r f c => v_at residual r f c 0) t a f s c.
Proof. exact jhr_value. Qed.
Theorem C43_jhj_and_jhr : forall n tbi tbc ant1 ant2 (g : gain_arr RCF) (m : model_arr RCF) flag tmin use,
  0 < n -> is_min n tbi tmin -> (forall r f, use r f = true <-> ~ flagged false (m_corr m) (flag r f)) ->
  forall residual : vis_arr RCF, check_type (j_ndim g) (v_ndim residual) VT_vis = Ok DIAG_DIAG -> v_corr residual = m_corr m ->
  exists tbi' jhj jhr, compute_jhj_and_jhr n tbi tbc ant1 ant2 g residual m flag = Ok (tbi', (jhj, jhr)) /\
    (forall t, tbi' t = (tbi t - tmin)%Z) /\
    forall t a f s c, t < j_tim g -> f < j_chan g -> s < j_dir g ->
      jhj t a f s c 0 = JHJ tbi tmin tbc ant1 ant2 use (fun r f s c => m_at m r f s c 0) (j_at g) t a f s c /\
      jhr t a f s c 0 = JHR tbi tmin tbc ant1 ant2 use (fun r f s c => m_at m r f s c 0) (j_at g) (fun r f c => v_at residual r f c 0) t a f s c.
Proof. exact jhj_jhr_value. Qed.
(* the terms of these sums are the derivatives of the corrupted model with respect to the gain phases *)
Theorem C43_jacobian : forall (m : jones RCF) (p q : R),
  let V := fun x y : R => cmul (cmul (cis x) (m 0 0 : RC)) (cconj (cis y)) in
  let J := fun sign : RC => jacobian DIAG_DIAG (fun _ _ => cis p) m (fun _ _ => cis q) sign 0 0 in
  derivable_pt_lim (fun x => re (V x q)) p (re (J plus_i)) /\ derivable_pt_lim (fun x => im (V x q)) p (im (J plus_i)) /\
  derivable_pt_lim (fun y => re (V p y)) q (re (J minus_i)) /\ derivable_pt_lim (fun y => im (V p y)) q (im (J minus_i)).
Proof. exact jacobian_derivative. Qed.

(* inputs of the solver: data, model, gains of matching shapes in DIAG_DIAG mode; Dw and Mw are data and model
   multiplied by the square root of the weights *)
Notation Dw vis weight := (fun r f c => cmul (v_at vis r f c 0%nat : RC) (ofR (sqrt (weight r f c)))) (only parsing).
Notation Mw m weight := (fun r f s c => cmul (m_at m r f s c 0%nat : RC) (ofR (sqrt (weight r f c)))) (only parsing).
(* the iteration: each step adds half of re(J^H r) / J^H J (of the initial gains) to every phase; it goes on
   exactly while some change exceeds tol and there are fewer than maxiter steps *)
Theorem C43_iterations : forall n nant ncorr nchan ndir tbi tbc ant1 ant2 (g : gain_arr RCF) (vis : vis_arr RCF) (m : model_arr RCF) flag weight tmin use,
  0 < n -> is_min n tbi tmin -> bins_disjoint n tbi tmin tbc ->
  (forall r f, use r f = true <-> ~ flagged false ncorr (flag r f)) ->
  v_corr vis = ncorr -> m_corr m = ncorr -> v_chan vis = nchan -> m_dir m = ndir ->
  check_type (j_ndim g) (m_ndim m) VT_model = Ok DIAG_DIAG -> check_type (j_ndim g) (v_ndim vis) VT_vis = Ok DIAG_DIAG ->
  j_tim g = n -> j_chan g = nchan -> j_dir g = ndir -> forall tol maxiter, (0 <= tol)%R ->
  let J := JHJ tbi tmin tbc ant1 ant2 use (Mw m weight) (j_at g) in
  let delta G := gn_delta tbi tmin tbc ant1 ant2 ndir use (Mw m weight) (Dw vis weight) J G in
  ((1 <= tol)%R \/ maxiter = 0 -> snd (gauss_newton n nant ncorr tbi tbc ant1 ant2 g vis flag m weight tol maxiter) = Raise NameError) /\
  ((tol < 1)%R -> 0 < maxiter -> exists g' jhj jhr k G,
    snd (gauss_newton n nant ncorr tbi tbc ant1 ant2 g vis flag m weight tol maxiter) = Ok (g', jhj, jhr, k) /\
    1 <= k <= maxiter /\ G 0 = j_at g /\ j_at g' = G k /\
    (forall t a f s c, t < n -> f < nchan -> s < ndir -> c < ncorr ->
       jhj t a f s c 0 = J t a f s c /\
       jhr t a f s c 0 = JHR tbi tmin tbc ant1 ant2 use (Mw m weight) (G (k - 1)) (residuals ant1 ant2 ndir (Mw m weight) (Dw vis weight) (G (k - 1)) t) t a f s c /\
       forall i, i < k -> G (S i) t a f s c 0 = cis (angle (G i t a f s c 0) + delta (G i) t a f s c)) /\
    (forall i, S i < k -> exists t a f s c, gain_in n nant nchan ndir ncorr t a f s c /\ (tol < Rabs (delta (G i) t a f s c))%R) /\
    (k < maxiter -> forall t a f s c, gain_in n nant nchan ndir ncorr t a f s c -> (Rabs (delta (G (k - 1)%nat) t a f s c) <= tol)%R)).
Proof. exact gn_main. Qed.
(* np.angle is an argument of a unit complex number *)
Theorem C43_angle : forall z, norm2 z = 1%R -> cis (angle z) = z.
Proof. exact angle_unit. Qed.
Theorem C43_pure_phases : forall n nant ncorr nchan ndir tbi tbc ant1 ant2 (g : gain_arr RCF) (vis : vis_arr RCF) (m : model_arr RCF) flag weight tmin use,
  0 < n -> is_min n tbi tmin -> bins_disjoint n tbi tmin tbc ->
  (forall r f, use r f = true <-> ~ flagged false ncorr (flag r f)) ->
  v_corr vis = ncorr -> m_corr m = ncorr -> v_chan vis = nchan -> m_dir m = ndir ->
  check_type (j_ndim g) (m_ndim m) VT_model = Ok DIAG_DIAG -> check_type (j_ndim g) (v_ndim vis) VT_vis = Ok DIAG_DIAG ->
  j_tim g = n -> j_chan g = nchan -> j_dir g = ndir -> forall tol maxiter g' jhj jhr k, (0 <= tol)%R ->
  snd (gauss_newton n nant ncorr tbi tbc ant1 ant2 g vis flag m weight tol maxiter) = Ok (g', jhj, jhr, k) ->
  forall t a f s c, t < n -> f < nchan -> s < ndir -> c < ncorr -> norm2 (j_at g' t a f s c 0) = 1%R.
Proof. exact gn_unit. Qed.
(* gains that explain the unflagged data exactly are returned after one step *)
Theorem C43_exact_gains_kept : forall n nant ncorr nchan ndir tbi tbc ant1 ant2 (g : gain_arr RCF) (vis : vis_arr RCF) (m : model_arr RCF) flag weight tmin use,
  0 < n -> is_min n tbi tmin -> bins_disjoint n tbi tmin tbc ->
  (forall r f, use r f = true <-> ~ flagged false ncorr (flag r f)) ->
  v_corr vis = ncorr -> m_corr m = ncorr -> v_chan vis = nchan -> m_dir m = ndir ->
  check_type (j_ndim g) (m_ndim m) VT_model = Ok DIAG_DIAG -> check_type (j_ndim g) (v_ndim vis) VT_vis = Ok DIAG_DIAG ->
  j_tim g = n -> j_chan g = nchan -> j_dir g = ndir -> forall tol maxiter, (0 <= tol < 1)%R -> 0 < maxiter ->
  (forall t a f s c, t < n -> f < nchan -> s < ndir -> c < ncorr -> norm2 (j_at g t a f s c 0) = 1%R) ->
  (forall t r f c, t < n -> in_bin tbi tmin tbc t r -> f < nchan -> c < ncorr -> use r f = true ->
     residuals ant1 ant2 ndir (Mw m weight) (Dw vis weight) (j_at g) t r f c = (c0 : RC)) ->
  exists g' jhj jhr, snd (gauss_newton n nant ncorr tbi tbc ant1 ant2 g vis flag m weight tol maxiter) = Ok (g', jhj, jhr, 1) /\
    forall t a f s c, t < n -> f < nchan -> s < ndir -> c < ncorr ->
      j_at g' t a f s c 0 = j_at g t a f s c 0 /\ jhr t a f s c 0 = (c0 : RC).
Proof. exact gn_fixed. Qed.
(* a phase common to all antennas of a solution interval passes through to the result *)
Theorem C43_common_phase : forall n nant ncorr nchan ndir tbi tbc ant1 ant2 (g g2 : gain_arr RCF) (vis : vis_arr RCF) (m : model_arr RCF) flag weight tmin use (al : nat -> nat -> nat -> nat -> R),
  0 < n -> is_min n tbi tmin -> bins_disjoint n tbi tmin tbc ->
  (forall r f, use r f = true <-> ~ flagged false ncorr (flag r f)) ->
  v_corr vis = ncorr -> m_corr m = ncorr -> v_chan vis = nchan -> m_dir m = ndir ->
  check_type (j_ndim g) (m_ndim m) VT_model = Ok DIAG_DIAG -> check_type (j_ndim g) (v_ndim vis) VT_vis = Ok DIAG_DIAG ->
  j_tim g = n -> j_chan g = nchan -> j_dir g = ndir ->
  j_ndim g2 = j_ndim g -> j_tim g2 = n -> j_chan g2 = nchan -> j_dir g2 = ndir ->
  (forall t a f s c, t < n -> f < nchan -> s < ndir -> c < ncorr -> norm2 (j_at g t a f s c 0) = 1%R) ->
  (forall t a f s c, t < n -> f < nchan -> s < ndir -> c < ncorr -> j_at g2 t a f s c 0 = cmul (cis (al t f s c)) (j_at g t a f s c 0 : RC)) ->
  forall tol maxiter, (0 <= tol < 1)%R -> 0 < maxiter ->
  exists r jhj jhr r2 jhj2 jhr2 k,
    snd (gauss_newton n nant ncorr tbi tbc ant1 ant2 g vis flag m weight tol maxiter) = Ok (r, jhj, jhr, k) /\
    snd (gauss_newton n nant ncorr tbi tbc ant1 ant2 g2 vis flag m weight tol maxiter) = Ok (r2, jhj2, jhr2, k) /\
    forall t a f s c, t < n -> f < nchan -> s < ndir -> c < ncorr ->
      j_at r2 t a f s c 0 = cmul (cis (al t f s c)) (j_at r t a f s c 0 : RC) /\ jhj2 t a f s c 0 = jhj t a f s c 0 /\ jhr2 t a f s c 0 = jhr t a f s c 0.
Proof. exact gn_phase. Qed.
Theorem C43_other_modes : forall mode (g : gain_arr RCF) (vis : vis_arr RCF), check_type (j_ndim g) (v_ndim vis) VT_vis = Ok mode -> mode <> DIAG_DIAG ->
  forall n nant ncorr tbi tbc ant1 ant2 flag m weight tol maxiter,
  snd (gauss_newton n nant ncorr tbi tbc ant1 ant2 g vis flag m weight tol maxiter) = Raise NotImplementedError /\
  compute_jhj_and_jhr n tbi tbc ant1 ant2 g vis m flag = Raise NotImplementedError.
Proof. intros. split; [eapply gn_modes|eapply jj_modes]; eassumption. Qed.
(* what happens to the caller's arrays *)
Theorem C43_caller_arrays : forall n nant ncorr tbi tbc ant1 ant2 (g : gain_arr RCF) (vis : vis_arr RCF) flag m weight tol maxiter vis' m' r,
  gauss_newton n nant ncorr tbi tbc ant1 ant2 g vis flag m weight tol maxiter = ((vis', m'), r) ->
  (forall row f c, v_at vis' row f c 0 = Dw vis weight row f c) /\ (forall row f s c, m_at m' row f s c 0 = Mw m weight row f s c).
Proof. intros. unfold gauss_newton in H. injection H as <- <- _. split; reflexivity. Qed.
(* so the caller's visibilities are not left alone *)
Theorem C43_inputs_unchanged_refuted : ~ forall n nant ncorr tbi tbc ant1 ant2 (g : gain_arr RCF) (vis : vis_arr RCF) flag m weight tol maxiter,
  forall row f c, v_at (fst (fst (gauss_newton n nant ncorr tbi tbc ant1 ant2 g vis flag m weight tol maxiter))) row f c 0 = v_at vis row f c 0.
Proof.
  intros H.
  pose (g := {| j_ndim := 5; j_tim := 1; j_chan := 1; j_dir := 1; j_at := fun _ _ _ _ _ _ => (c1 : RCF) |} : gain_arr RCF).
  pose (v := {| v_ndim := 3; v_row := 1; v_chan := 1; v_corr := 1; v_at := fun _ _ _ _ => (c1 : RCF) |} : vis_arr RCF).
  pose (m := {| m_ndim := 4; m_row := 1; m_chan := 1; m_dir := 1; m_corr := 1; m_at := fun _ _ _ _ _ => (c1 : RCF) |} : model_arr RCF).
  specialize (H 1 2 1 (fun _ => 0%Z) (fun _ => 1) (fun _ => 0) (fun _ => 1) g v (fun _ _ _ _ => false) m (fun _ _ _ => 4%R) 0%R 5 0 0 0).
  cbn in H. injection H. intros _ H2. assert (S : sqrt 4 = 2%R) by (replace 4%R with (2 * 2)%R by ring; apply sqrt_square; lra). rewrite S in H2. lra.
Qed.
(* the dask functions: each block is the part of the whole that belongs to the times of its row chunk *)
Theorem C43_chunked_jhj : forall n tbi tbc ant1 ant2 (g : gain_arr RCF) (m : model_arr RCF) flag tmin ch,
  0 < n -> is_min n tbi tmin -> check_type (j_ndim g) (m_ndim m) VT_model = Ok DIAG_DIAG ->
  j_tim g = n -> list_sum (cc_chan ch) = j_chan g -> hd 0 (cc_jdir ch) = j_dir g ->
  exists tbi' whole blocks, compute_jhj n tbi tbc ant1 ant2 g m flag = Ok (tbi', whole) /\
  dask_jhj ch tbi tbc ant1 ant2 g m flag = Ok (cc_row ch, blocks) /\
  forall rb, chunk_aligned n tbi tmin tbc ch rb -> forall cb, exists btbi b, blocks rb cb = Ok (btbi, b) /\
    forall t a f s c, t < nth rb (cc_time ch) 0 -> f < nth cb (cc_chan ch) 0 -> s < j_dir g ->
      b t a f s c 0 = whole (off (cc_time ch) rb + t) a (off (cc_chan ch) cb + f) s c 0.
Proof. exact dask_jhj_spec. Qed.
Theorem C43_chunked_jhr : forall n tbi tbc ant1 ant2 (g : gain_arr RCF) (m : model_arr RCF) flag tmin ch,
  0 < n -> is_min n tbi tmin -> check_type (j_ndim g) (m_ndim m) VT_model = Ok DIAG_DIAG ->
  j_tim g = n -> list_sum (cc_chan ch) = j_chan g -> hd 0 (cc_jdir ch) = j_dir g ->
  forall residual : vis_arr RCF, check_type (j_ndim g) (v_ndim residual) VT_vis = Ok DIAG_DIAG ->
  exists tbi' whole blocks, compute_jhr n tbi tbc ant1 ant2 g residual m flag = Ok (tbi', whole) /\
  dask_jhr ch tbi tbc ant1 ant2 g residual m flag = Ok (cc_row ch, blocks) /\
  forall rb, chunk_aligned n tbi tmin tbc ch rb -> forall cb, exists btbi b, blocks rb cb = Ok (btbi, b) /\
    forall t a f s c, t < nth rb (cc_time ch) 0 -> f < nth cb (cc_chan ch) 0 -> s < j_dir g ->
      b t a f s c 0 = whole (off (cc_time ch) rb + t) a (off (cc_chan ch) cb + f) s c 0.
Proof. exact dask_jhr_spec. Qed.
(* but the shape the dask result declares has rows where the blocks have times *)
Theorem C43_declared_shape_refuted : ~ forall ch tbi tbc ant1 ant2 (g : gain_arr RCF) (m : model_arr RCF) flag declared blocks,
  dask_jhj ch tbi tbc ant1 ant2 g m flag = Ok (declared, blocks) -> list_sum (cc_time ch) = j_tim g -> declared = cc_time ch.
Proof.
  intros H.
  pose (ch := {| cc_row := [3]; cc_time := [1]; cc_chan := [1]; cc_jant := [2]; cc_jdir := [1]; cc_mdir := [1] |}).
  pose (g := {| j_ndim := 5; j_tim := 1; j_chan := 1; j_dir := 1; j_at := fun _ _ _ _ _ _ => (c1 : RCF) |} : gain_arr RCF).
  pose (m := {| m_ndim := 4; m_row := 3; m_chan := 1; m_dir := 1; m_corr := 1; m_at := fun _ _ _ _ _ => (c1 : RCF) |} : model_arr RCF).
  specialize (H ch (fun _ => 0%Z) (fun _ => 3) (fun _ => 0) (fun _ => 1) g m (fun _ _ _ _ => false) _ _ eq_refl eq_refl). discriminate H.
Qed.

(* ---------- the hypotheses can be met ---------- *)
Definition ex_gain : gain_arr RCF := {| j_ndim := 5; j_tim := 1; j_chan := 1; j_dir := 1; j_at := fun _ a _ _ _ _ => (cis (INR a) : RCF) |}.
Definition ex_vis : vis_arr RCF := {| v_ndim := 3; v_row := 1; v_chan := 1; v_corr := 1; v_at := fun _ _ _ _ => (cis (- (1)) : RCF) |}.
Definition ex_model : model_arr RCF := {| m_ndim := 4; m_row := 1; m_chan := 1; m_dir := 1; m_corr := 1; m_at := fun _ _ _ _ _ => (c1 : RCF) |}.
Definition ex_image : image_arr := {| i_ndim := 4; i_chan := 1; i_dir := 1; i_corr := 1; i_at := fun _ _ _ _ _ => (c1 : RCF) |}.
Example C42_case : check_type (j_ndim ex_gain) (i_ndim ex_image) VT_model = Ok DIAG_DIAG /\ is_min 1 (fun _ => 7%Z) 7%Z /\ bins_disjoint 1 (fun _ => 7%Z) 7%Z (fun _ => 1) /\ in_bin (fun _ => 7%Z) 7%Z (fun _ => 1) 0 0.
Proof.
  split; [reflexivity|]. split; [split; [exists 0; split; [lia|reflexivity]|intros; lia]|]. split; [intros t t' r H1 H2 _ _; lia|]. unfold in_bin. lia.
Qed.
(* one baseline with gains of phase 0 and 1 and data e^{-i}: solved already *)
Example C43_case : exists g' jhj jhr, snd (gauss_newton 1 2 1 (fun _ => 7%Z) (fun _ => 1) (fun _ => 0) (fun _ => 1) ex_gain ex_vis (fun _ _ _ _ => false) ex_model (fun _ _ _ => 1%R) (/ 10) 5) = Ok (g', jhj, jhr, 1) /\
  j_at g' 0 1 0 0 0 0 = cis 1.
Proof.
  destruct (C43_exact_gains_kept 1 2 1 1 1 (fun _ => 7%Z) (fun _ => 1) (fun _ => 0) (fun _ => 1) ex_gain ex_vis ex_model (fun _ _ _ _ => false) (fun _ _ _ => 1%R) 7%Z (fun _ _ => true)) with (tol := (/ 10)%R) (maxiter := 5)
    as (g' & jhj & jhr & E & V); try reflexivity; try lia; try lra; try apply C42_case.
  - intros r f. split; [|reflexivity]. intros _ (i & j & H & X). discriminate X.
  - intros. apply cis_norm2.
  - intros t r f c _ _ _ _ _. unfold residuals, seen. cbn [csum ex_gain ex_vis ex_model j_at v_at m_at INR]. rewrite sqrt_1.
    unfold cis. rewrite cos_0, sin_0, cos_neg, sin_neg. cbn. f_equal; ring.
  - exists g', jhj, jhr. split; [exact E|]. destruct (V 0 1 0 0 0) as [X _]; try lia. rewrite X. reflexivity.
Qed.

Print Assumptions C42_values.
Print Assumptions C42_is_corrupt_vis_of_prediction.
Print Assumptions C42_chunks.
Print Assumptions C42_unchunked_axes.
Print Assumptions C43_jhj.
Print Assumptions C43_jhr.
Print Assumptions C43_jhj_and_jhr.
Print Assumptions C43_jacobian.
Print Assumptions C43_iterations.
Print Assumptions C43_angle.
Print Assumptions C43_pure_phases.
Print Assumptions C43_exact_gains_kept.
Print Assumptions C43_common_phase.
Print Assumptions C43_other_modes.
Print Assumptions C43_caller_arrays.
Print Assumptions C43_inputs_unchanged_refuted.
Print Assumptions C43_chunked_jhj.
Print Assumptions C43_chunked_jhr.
Print Assumptions C43_declared_shape_refuted.
