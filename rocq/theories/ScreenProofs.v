From Coq Require Import Reals Lra.
From Verif Require Import Prelude PreludeFacts CRing CField CplxR CplxF PredictModel PredictSpec PredictProofs AvgModel AvgSpec CalModel CalSpec CalProofs CalProofs2
  RimeModel RimeSpec CoordModel CoordSpec CoordProofs DftModel DftSpec DftProofs Cal2Model Cal2Spec Cal2Proofs ApplyGainsModel ApplyGainsSpec ApplyGainsProofs ScreenModel ScreenSpec.
Open Scope nat_scope.

(* ---------- the chunked call ---------- *)
Lemma corrupt_image_spec nrow time upc nant ant1 ant2 nchan (m : image_arr) (g : gain_arr RCF) uvw freq lm mode us rows idx cnts :
  0 < nrow -> 0 < upc -> sorted_times nrow time -> distinct_times nrow time us -> chunkify_rows nrow time upc = Ok (rows, idx, cnts) ->
  check_type (j_ndim g) (i_ndim m) VT_model = Ok mode -> i_chan m = nchan ->
  (forall c, c < length (chunk_sizes (j_tim g) upc) <-> c * upc < length us) \/ length (chunk_sizes (j_tim g) upc) = 1 ->
  exists out, corrupt_image rows idx cnts upc nant ant1 ant2 nchan m g uvw freq lm = Ok out /\
    forall r f t, r < nrow -> f < nchan -> t < length us -> nth t us 0%Z = time r ->
      jeq (mode_full mode) (i_corr m) (out r f)
        (jsum (i_dir m) (fun s => gsandwich mode (j_at (ApplyGainsProofs.seen upc (length rows) g) t (ant1 r) f s) (predicted m uvw freq lm t r f s)
                                    (j_at (ApplyGainsProofs.seen upc (length rows) g) t (ant2 r) f s))).
Proof.
  intros HN HU HS HD E CK IC HJ.
  destruct (chunkify_rows_main nrow time upc HU) as (rows' & idx' & cnts' & us' & E' & HD' & L1 & L2 & _ & CL & _ & SUM & BIN).
  rewrite E in E'. injection E' as <- <- <-.
  assert (us' = us) as -> by (eapply distinct_unique; eassumption).
  destruct (chunkify_aligned nrow time upc HU rows idx cnts E) as (DIS & MIN & _ & AL). destruct (MIN HN) as [NI MN]. clear MIN.
  unfold corrupt_image. cbv zeta. fold (ApplyGainsProofs.seen upc (length rows) g).
  set (h := ApplyGainsProofs.seen upc (length rows) g). destruct (seen_shape upc (length rows) g) as [S1 S2]. fold h in S1, S2.
  rewrite L1 in *. set (ch := {| cc_row := rows; cc_time := chunk_sizes (length us) upc; cc_chan := [nchan]; cc_jant := [nant]; cc_jdir := [j_dir g]; cc_mdir := [i_dir m] |}).
  set (tbi := fun t => Z.of_nat (nth t idx 0)) in *. set (tbc := fun t => nth t cnts 0) in *.
  assert (LR : length (chunk_sizes (length us) upc) = length rows).
  { apply same_length. intros c. rewrite sizes_length by exact HU. now rewrite CL. }
  destruct (dask_cac (length us) nrow tbi tbc ant1 ant2 h m uvw freq lm mode 0%Z ch nant [3] [i_dir m] [2]) as (tbi' & whole & blocks & EW & EB & H);
    [rewrite S1; exact CK|exact NI|exact MN|exact DIS|reflexivity|cbn; now rewrite S2|reflexivity|reflexivity|reflexivity|reflexivity|cbn; lia|].
  rewrite EB. cbn [bind].
  assert (G2 : negb (Nat.eqb (length (chunk_sizes (j_tim g) upc)) (length rows) || Nat.eqb (length (chunk_sizes (j_tim g) upc)) 1)%bool = false).
  { destruct HJ as [HJ|HJ].
    - rewrite (same_length (chunk_sizes (j_tim g) upc) rows) by (intros c; rewrite HJ; now rewrite CL). now rewrite Nat.eqb_refl.
    - rewrite HJ. cbn. now rewrite orb_true_r. }
  rewrite G2.
  assert (AC : forall rb, rb < length rows -> chunk_aligned (length us) tbi 0%Z tbc ch rb).
  { intros rb RB. unfold chunk_aligned. cbn [ch cc_time cc_row]. rewrite sizes_off, sizes_nth by exact HU.
    rewrite Nat.min_l by (apply CL in RB; lia). exact (AL rb RB). }
  assert (G3 : existsb (fun rb => is_raise (blocks rb 0)) (seq 0 (length rows)) = false).
  { destruct (existsb _ _) eqn:X; [|reflexivity]. apply existsb_exists in X. destruct X as (rb & RB & X). apply in_seq in RB.
    destruct (H rb (AC rb ltac:(lia)) 0) as (a & b & Q & _). rewrite Q in X. discriminate. }
  rewrite G3. eexists. split; [reflexivity|]. intros r f t R FC T ET. cbn beta.
  destruct (locate_spec rows r ltac:(lia)) as (P1 & P2 & P3). destruct (locate rows r) as [rb r'] eqn:EL. cbn [fst snd] in P1, P2, P3.
  destruct (H rb (AC rb P1) 0) as (bt & b & Q & _ & _ & _ & _ & V). rewrite Q. cbn [ch cc_row cc_chan nth] in V. specialize (V r' f P2 FC).
  cbn [ch cc_row] in *. change (off [nchan] 0) with 0 in V. rewrite P3 in V. cbn [Nat.add] in V.
  destruct (cac_spec (length us) nrow tbi tbc ant1 ant2 h m uvw freq lm mode 0%Z) as (t1 & v1 & E1 & _ & _ & _ & _ & _ & W);
    [rewrite S1; exact CK|exact NI|exact MN|exact DIS|].
  rewrite EW in E1. assert (whole = v1) as <- by (injection E1; auto). clear E1.
  destruct (W r f ltac:(lia)) as [W1 _].
  assert (IB : in_bin tbi 0 tbc t r).
  { pose proof (proj2 (BIN HS t r T R) (eq_sym ET)) as X. unfold in_bin, tbi, tbc. lia. }
  exact (jeq_trans _ _ _ _ _ V (W1 t T IB)).
Qed.
Lemma seen_all nrow time upc us rows idx cnts (g : gain_arr RCF) : 0 < upc -> distinct_times nrow time us -> chunkify_rows nrow time upc = Ok (rows, idx, cnts) ->
  j_tim g = length us -> ApplyGainsProofs.seen upc (length rows) g = g /\ length idx = length us /\
  (forall c, c < length (chunk_sizes (j_tim g) upc) <-> c * upc < length us).
Proof.
  intros HU HD E HJ.
  destruct (chunkify_rows_main nrow time upc HU) as (rows' & idx' & cnts' & us' & E' & HD' & L1 & L2 & _ & CL & _). rewrite E in E'. injection E' as <- <- <-.
  assert (us' = us) as -> by (eapply distinct_unique; eassumption). rewrite HJ.
  assert (LR : length (chunk_sizes (length us) upc) = length rows).
  { apply same_length. intros c. rewrite sizes_length by exact HU. now rewrite CL. }
  split; [|split; [exact L1|intros c; now apply sizes_length]].
  unfold ApplyGainsProofs.seen. rewrite HJ, LR. destruct (Nat.eqb_spec (length rows) 1) as [Q|Q]; [rewrite Q|]; reflexivity.
Qed.

(* ---------- frequencies, fluxes, positions ---------- *)
Lemma fmax_top n freq : 0 < n -> is_top n freq (fmax n freq).
Proof.
  induction n as [|n IH]; [lia|]. intros _. destruct n as [|n].
  - split; [exists 0; split; [lia|reflexivity]|]. intros f F. assert (f = 0) as -> by lia. apply Rle_refl.
  - destruct (IH ltac:(lia)) as [(f0 & F0 & E) T]. change (fmax (S (S n)) freq) with (Rmax (fmax (S n) freq) (freq (S n))). split.
    + unfold Rmax. destruct (Rle_dec _ _); [exists (S n); split; [lia|reflexivity]|exists f0; split; [lia|exact E]].
    + intros f F. destruct (Nat.eq_dec f (S n)) as [->|N]; [apply Rmax_r|]. apply (Rle_trans _ _ _ (T f ltac:(lia))). apply Rmax_l.
Qed.
Lemma top_unique n freq a b : is_top n freq a -> is_top n freq b -> a = b.
Proof. intros [(f & F & <-) A] [(h & H & <-) B]. apply Rle_antisym; auto. Qed.
Lemma stokes_flux s nu : stokes_I s nu = flux_at s nu.
Proof. unfold stokes_I, flux_at. destruct (s_spec s) as [[a b]|]; [reflexivity|]. unfold Rpower. rewrite Rmult_0_l, exp_0. ring. Qed.

Open Scope R_scope.
Lemma lm_all sky pc : sky <> [] -> exists lm, script_lm sky pc = Ok lm /\
  forall d, (d < length sky)%nat -> lm d 0%nat = cos_l pc (nth d sky no_source) /\ lm d 1%nat = cos_m pc (nth d sky no_source).
Proof.
  intros NE. replace (script_lm sky pc) with (radec_to_lm (length sky) 2 (radec_of sky) (Some pc)) by (destruct sky; [contradiction|reflexivity]).
  destruct (radec_to_lm (length sky) 2 (radec_of sky) (Some pc)) as [lm|e] eqn:E.
  - exists lm. split; [reflexivity|]. intros d D. destruct (lm_rows (length sky) (radec_of sky) (Some pc) d D) as (o & E2 & A & B).
    rewrite E in E2. injection E2 as <-. exact (conj A B).
  - unfold radec_to_lm in E. destruct (phase_centre_of (Some pc)). discriminate.
Qed.
Lemma n_in_front pc s : 0 < cos_n pc s -> n1 (cos_l pc s) (cos_m pc s) = cos_n pc s - 1.
Proof.
  intros P. unfold n1. pose proof (n_centre (s_ra s) (s_dec s) (fst pc) (snd pc)) as C. unfold cosdist in C. unfold cos_n in *. rewrite C in *.
  unfold cos_l, cos_m. rewrite l_east, m_north. pose proof (n_value (s_dec s) (s_ra s - fst pc) (snd pc)) as V.
  rewrite Rabs_pos_eq in V by lra. rewrite <- V. f_equal. f_equal. ring.
Qed.
Lemma path_delay pc s (uvw : arr R) nu : 0 < cos_n pc s ->
  delay (cos_l pc s) (cos_m pc s) (uvw 0%nat) (uvw 1%nat) (uvw 2%nat) nu = path_phase pc s uvw nu.
Proof. intros P. unfold delay, path_phase. now rewrite n_in_front. Qed.

Lemma screen_value nu top x : 0 < nu -> 0 < top -> x / (nu / top) = x * (top / nu).
Proof. intros A B. field. split; lra. Qed.

(* ---------- one direction ---------- *)
Lemma div_polar x y ph : y <> 0 -> fdiv (f := RCF) (cmul (c := RCF) (ofR x : RCF) (cis ph : RCF)) (ofR y : RCF) = (polar (x / y) ph : RCF).
Proof. intros Y. unfold polar. apply injective_projections; cbn; field; exact Y. Qed.
Lemma zero_div (y : R) (c : RC) : fdiv (f := RCF) (cmul (c := RCF) (0%K : RCF) (c : RCF)) (ofR y : RCF) = (0%K : RCF).
Proof. apply injective_projections; cbn; unfold Rdiv; ring. Qed.
Lemma polar_sandwich x a b c : cmul (c := RC) (cmul (cis a) (polar x b)) (cconj (cis c)) = polar x (a - c + b).
Proof.
  rewrite <- cis_opp. unfold polar. replace (a - c + b) with (a + b + - c) by ring. rewrite !cis_add. apply injective_projections; cbn; ring.
Qed.

Lemma sky_predicted sky nchan freq ncorr uvw pc lm t r f d i j : (d < length sky)%nat -> in_front pc sky ->
  lm d 0%nat = cos_l pc (nth d sky no_source) -> lm d 1%nat = cos_m pc (nth d sky no_source) ->
  predicted (sky_image sky nchan freq ncorr) uvw freq (fun _ => lm) t r f d i j =
  if (Nat.eqb ncorr 4 && negb (Nat.eqb i j))%bool then (0%K : RCF)
  else (polar (flux_at (nth d sky no_source) (freq f) / cos_n pc (nth d sky no_source)) (- path_phase pc (nth d sky no_source) (uvw r) (freq f)) : RCF).
Proof.
  intros D IF EL EM. pose proof (IF _ (nth_In sky no_source D)) as P. unfold predicted, sky_image. cbn [i_at]. rewrite EL, EM, stokes_flux.
  destruct (_ && _)%bool; [apply zero_div|]. rewrite n_in_front by exact P. replace (cos_n pc (nth d sky no_source) - 1 + 1) with (cos_n pc (nth d sky no_source)) by ring.
  rewrite div_polar by lra. now rewrite path_delay.
Qed.
(* correlation i j of the product of gains and a source *)
Lemma vector_term (a x b : jones RCF) c : gsandwich DIAG_DIAG a x b c 0%nat = cmul (c := RC) (cmul (a c 0%nat : RC) (x c 0%nat)) (cconj (b c 0%nat : RC)).
Proof. apply injective_projections; cbn; ring. Qed.
Lemma diag_term (a x b : jones RCF) i : (i < 2)%nat -> gsandwich DIAG a x b i i = cmul (c := RC) (cmul (a i 0%nat : RC) (x i i)) (cconj (b i 0%nat : RC)).
Proof. intros I2. destruct i as [|[|]]; [| |lia]; apply injective_projections; cbn; ring. Qed.
Lemma cross_term (a x b : jones RCF) i j : (i < 2)%nat -> (j < 2)%nat -> i <> j -> x i j = (0%K : RCF) -> gsandwich DIAG a x b i j = (0%K : RCF).
Proof.
  intros I2 J2 N X. destruct (x i j) as [u v] eqn:Q. injection X as -> ->.
  destruct i as [|[|]], j as [|[|]]; try lia; apply injective_projections; cbn; rewrite ?Q; cbn; ring.
Qed.
Definition image_mode (ncorr : nat) : cmode := if Nat.eqb ncorr 4 then DIAG else DIAG_DIAG.
Lemma image_check sky nchan freq ncorr : check_type 5 (i_ndim (sky_image sky nchan freq ncorr)) VT_model = Ok (image_mode ncorr).
Proof. unfold sky_image, image_mode. cbn [i_ndim]. destruct (Nat.eqb ncorr 4); reflexivity. Qed.
(* the correlations of the output *)
Lemma image_sum sky nchan freq ncorr uvw pc lm t r f c (a b : nat -> jones RCF) : good_corr ncorr -> (c < ncorr)%nat -> in_front pc sky ->
  (forall d, (d < length sky)%nat -> lm d 0%nat = cos_l pc (nth d sky no_source) /\ lm d 1%nat = cos_m pc (nth d sky no_source)) ->
  forall o : jones RCF, jeq (mode_full (image_mode ncorr)) (i_corr (sky_image sky nchan freq ncorr)) o
    (jsum (i_dir (sky_image sky nchan freq ncorr)) (fun s => gsandwich (image_mode ncorr) (a s) (predicted (sky_image sky nchan freq ncorr) uvw freq (fun _ => lm) t r f s) (b s))) ->
  (if Nat.eqb ncorr 4 then o (c / 2)%nat (c mod 2)%nat else o c 0%nat) =
  match hand ncorr c with
  | Some k => csum (K := RC) (length sky) (fun d => cmul (cmul (a d k 0%nat : RC) (polar (flux_at (nth d sky no_source) (freq f) / cos_n pc (nth d sky no_source))
                                                                     (- path_phase pc (nth d sky no_source) (uvw r) (freq f)))) (cconj (b d k 0%nat : RC)))
  | None => (c0 : RC)
  end.
Proof.
  intros GC C IF LM o H. unfold jeq in H. unfold hand.
  assert (PV : forall i d, (d < length sky)%nat -> predicted (sky_image sky nchan freq ncorr) uvw freq (fun _ => lm) t r f d i i =
     polar (flux_at (nth d sky no_source) (freq f) / cos_n pc (nth d sky no_source)) (- path_phase pc (nth d sky no_source) (uvw r) (freq f))).
  { intros i d D. rewrite (sky_predicted sky nchan freq ncorr uvw pc lm) by (auto; apply (LM d D)). rewrite Nat.eqb_refl. now rewrite andb_false_r. }
  destruct (Nat.eqb_spec ncorr 4) as [->|N4].
  - assert (DG : forall i, (i < 2)%nat -> o i i = csum (K := RC) (length sky) (fun d => cmul (cmul (a d i 0%nat : RC) (polar (flux_at (nth d sky no_source) (freq f) / cos_n pc (nth d sky no_source))
                                                                     (- path_phase pc (nth d sky no_source) (uvw r) (freq f)))) (cconj (b d i 0%nat : RC)))).
    { intros i I2. rewrite (H i i) by (cbn; lia). unfold jsum. cbn [i_dir sky_image]. apply csum_ext. intros d D. change (image_mode 4) with DIAG.
      rewrite diag_term by exact I2. now rewrite PV. }
    assert (CR : forall i j, (i < 2)%nat -> (j < 2)%nat -> i <> j -> o i j = (0%K : RCF)).
    { intros i j I2 J2 N. rewrite (H i j) by (cbn; lia). unfold jsum. rewrite <- (csum_0 (law_c _ RCF_laws) (length sky)). apply csum_ext. intros d D. change (image_mode 4) with DIAG.
      apply cross_term; auto. rewrite (sky_predicted sky nchan freq 4 uvw pc lm) by (auto; apply (LM d D)). destruct (Nat.eqb_spec i j); [contradiction|reflexivity]. }
    destruct c as [|[|[|[|]]]]; try lia; cbn [Nat.div Nat.modulo Nat.divmod fst snd Nat.sub].
    + exact (DG 0%nat ltac:(lia)).
    + exact (CR 0%nat 1%nat ltac:(lia) ltac:(lia) ltac:(lia)).
    + exact (CR 1%nat 0%nat ltac:(lia) ltac:(lia) ltac:(lia)).
    + exact (DG 1%nat ltac:(lia)).
  - assert (MF : mode_full (image_mode ncorr) = false /\ i_corr (sky_image sky nchan freq ncorr) = ncorr /\ image_mode ncorr = DIAG_DIAG).
    { unfold image_mode, sky_image. cbn [i_corr]. destruct (Nat.eqb_spec ncorr 4); [contradiction|]. auto. }
    destruct MF as (M1 & M2 & M3). rewrite M1, M2, M3 in H. rewrite (H c 0%nat) by (cbn; auto). unfold jsum. cbn [i_dir sky_image]. apply csum_ext. intros d D.
    rewrite vector_term.
    assert (X : predicted (sky_image sky nchan freq ncorr) uvw freq (fun _ => lm) t r f d c 0%nat =
       polar (flux_at (nth d sky no_source) (freq f) / cos_n pc (nth d sky no_source)) (- path_phase pc (nth d sky no_source) (uvw r) (freq f))).
    { rewrite (sky_predicted sky nchan freq ncorr uvw pc lm) by (auto; apply (LM d D)). destruct (Nat.eqb_spec ncorr 4); [contradiction|reflexivity]. }
    now rewrite X.
Qed.

(* ---------- simulate ---------- *)
Lemma screen_gain lm nchan freq nt nd alphas t p f d k pc s top : lm d 0%nat = cos_l pc s -> lm d 1%nat = cos_m pc s -> positive nchan freq -> is_top nchan freq top -> (f < nchan)%nat ->
  j_at (make_screen lm nchan freq nt nd alphas) t p f d k 0%nat = (cis (screen_phase pc s (fun i => alphas t p i k) top (freq f)) : RCF).
Proof.
  intros EL EM PO TOP F. cbn [make_screen j_at]. rewrite EL, EM, (top_unique nchan freq (fmax nchan freq) top); [|apply fmax_top; lia|exact TOP].
  rewrite screen_value; [|now apply PO|destruct TOP as [(f0 & F0 & <-) _]; now apply PO]. f_equal. unfold screen_phase. ring.
Qed.
Lemma screened_sum pc sky alphas top ant1 ant2 uvw freq t r f k :
  csum (K := RC) (length sky) (fun d => cmul (cmul (cis (screen_phase pc (nth d sky no_source) (fun i => alphas t (ant1 r) i k) top (freq f)))
      (polar (flux_at (nth d sky no_source) (freq f) / cos_n pc (nth d sky no_source)) (- path_phase pc (nth d sky no_source) (uvw r) (freq f))))
      (cconj (cis (screen_phase pc (nth d sky no_source) (fun i => alphas t (ant2 r) i k) top (freq f))))) =
  screened pc sky alphas top ant1 ant2 uvw freq t r f k.
Proof. unfold screened. apply csum_ext. intros d D. rewrite polar_sandwich. reflexivity. Qed.

Section Simulate.
  Context (nrow : nat) (time : arr Z) (upc nant : nat) (ant1 ant2 : arr nat) (nchan ncorr : nat) (uvw : arr2 R) (freq : arr R) (pc : R * R) (sky : list sky_source)
    (alphas : nat -> nat -> arr2 R) (us : list Z) (top : R).
  Context (HN : (0 < nrow)%nat) (HU : (0 < upc)%nat) (HS : sorted_times nrow time) (HD : distinct_times nrow time us) (GC : good_corr ncorr)
    (NE : sky <> []) (IF : in_front pc sky) (PO : positive nchan freq) (TOP : is_top nchan freq top).
  Lemma simulate_main : exists out g, simulate nrow time upc nant ant1 ant2 nchan nchan ncorr uvw freq pc sky alphas = Ok (out, g) /\
    j_ndim g = 5%nat /\ j_tim g = length us /\ j_dir g = length sky /\
    (forall t p f d k, (f < nchan)%nat -> (d < length sky)%nat ->
      j_at g t p f d k 0%nat = (cis (screen_phase pc (nth d sky no_source) (fun i => alphas t p i k) top (freq f)) : RCF)) /\
    (forall r f c t, (r < nrow)%nat -> (f < nchan)%nat -> (c < ncorr)%nat -> (t < length us)%nat -> nth t us 0%Z = time r ->
      out r f c = match hand ncorr c with Some k => screened pc sky alphas top ant1 ant2 uvw freq t r f k | None => (c0 : RC) end).
  Proof.
    destruct (chunkify_rows_main nrow time upc HU) as (rows & idx & cnts & us' & E & HD' & L1 & _).
    assert (us' = us) as -> by (eapply distinct_unique; eassumption). destruct (lm_all sky pc NE) as (lm & EL & LM).
    set (g := make_screen lm nchan freq (length us) (length sky) alphas).
    destruct (seen_all nrow time upc us rows idx cnts g HU HD E eq_refl) as (SG & _ & HJ).
    destruct (corrupt_image_spec nrow time upc nant ant1 ant2 nchan (sky_image sky nchan freq ncorr) g uvw freq (fun _ => lm) (image_mode ncorr) us rows idx cnts
      HN HU HS HD E (image_check sky nchan freq ncorr) eq_refl (or_introl HJ)) as (out & EO & H).
    rewrite SG in H. unfold simulate. rewrite E. cbn [bind].
    assert (G1 : negb (Nat.eqb ncorr 4 || Nat.eqb ncorr 2 || Nat.eqb ncorr 1)%bool = false) by (destruct GC as [->|[->| ->]]; reflexivity).
    rewrite G1, Nat.eqb_refl. cbn [negb]. rewrite EL. cbn [bind]. cbv zeta. rewrite L1. fold g. rewrite EO. cbn [bind].
    eexists. exists g. split; [reflexivity|]. split; [reflexivity|]. split; [reflexivity|]. split; [reflexivity|].
    assert (GA : forall t p f d k, (f < nchan)%nat -> (d < length sky)%nat ->
      j_at g t p f d k 0%nat = (cis (screen_phase pc (nth d sky no_source) (fun i => alphas t p i k) top (freq f)) : RCF)).
    { intros t p f d k F D. destruct (LM d D). now apply screen_gain. }
    split; [exact GA|]. intros r f c t R FC CC T ET. cbn beta. specialize (H r f t R FC T ET).
    rewrite (image_sum sky nchan freq ncorr uvw pc lm t r f c _ _ GC CC IF LM (out r f) H).
    destruct (hand ncorr c) as [k|]; [|reflexivity]. rewrite <- screened_sum. apply csum_ext. intros d D. now rewrite !GA.
  Qed.
End Simulate.
Lemma simulate_zero nrow time nant ant1 ant2 nflag nchan ncorr uvw freq pc sky alphas :
  simulate nrow time 0 nant ant1 ant2 nflag nchan ncorr uvw freq pc sky alphas = Raise ValueError.
Proof. unfold simulate. now rewrite chunkify_zero. Qed.
Lemma chunkify_ok nrow time upc : (0 < upc)%nat -> exists rows idx cnts, chunkify_rows nrow time upc = Ok (rows, idx, cnts).
Proof. intros U. destruct (chunkify_rows_main nrow time upc U) as (rows & idx & cnts & us & E & _). eauto. Qed.
Lemma simulate_refuses nrow time upc nant ant1 ant2 nflag nchan ncorr uvw freq pc sky alphas : (0 < upc)%nat ->
  (~ good_corr ncorr -> simulate nrow time upc nant ant1 ant2 nflag nchan ncorr uvw freq pc sky alphas = Raise RuntimeError) /\
  (good_corr ncorr -> nchan <> nflag -> simulate nrow time upc nant ant1 ant2 nflag nchan ncorr uvw freq pc sky alphas = Raise AssertionError) /\
  (good_corr ncorr -> nchan = nflag -> sky = [] -> simulate nrow time upc nant ant1 ant2 nflag nchan ncorr uvw freq pc sky alphas = Raise TypeError).
Proof.
  intros U. destruct (chunkify_ok nrow time upc U) as (rows & idx & cnts & E). unfold simulate. rewrite E. cbn [bind]. unfold good_corr.
  assert (G : (Nat.eqb ncorr 4 || Nat.eqb ncorr 2 || Nat.eqb ncorr 1)%bool = true <-> (ncorr = 1 \/ ncorr = 2 \/ ncorr = 4)%nat).
  { rewrite !orb_true_iff, !Nat.eqb_eq. tauto. }
  repeat split.
  - intros N. destruct (Nat.eqb ncorr 4 || Nat.eqb ncorr 2 || Nat.eqb ncorr 1)%bool; [destruct N; now apply G|reflexivity].
  - intros Y N. rewrite (proj2 G Y). cbn [negb]. destruct (Nat.eqb_spec nchan nflag); [contradiction|reflexivity].
  - intros Y -> ->. rewrite (proj2 G Y). cbn [negb]. rewrite Nat.eqb_refl. reflexivity.
Qed.

(* ---------- calibrate ---------- *)
Lemma csum_sub n (f g : nat -> RC) : csum (K := RC) n (fun i => csub (f i) (g i)) = csub (csum n f) (csum n g).
Proof. induction n as [|n IH]; cbn [csum]; [apply injective_projections; cbn; ring|]. rewrite IH. apply injective_projections; cbn; ring. Qed.
Lemma calibration_model_value nrow nchan uvw freq pc sky : sky <> [] -> in_front pc sky ->
  exists m, calibration_model nrow nchan uvw freq pc sky = Ok m /\ m_dir m = length sky /\
    forall r f d k j, (r < nrow)%nat -> (f < nchan)%nat -> (d < length sky)%nat ->
      m_at m r f d k j = (polar (flux_at (nth d sky no_source) (freq f)) (- path_phase pc (nth d sky no_source) (uvw r) (freq f)) : RCF).
Proof.
  intros NE IF. destruct (lm_all sky pc NE) as (lm & EL & LM). unfold calibration_model. rewrite EL. cbn [bind]. eexists. split; [reflexivity|]. split; [reflexivity|].
  intros r f d k j R F D. cbn [m_at].
  match goal with |- context [im_to_vis ?a ?b ?c ?e ?im ?u ?l ?fr ?cv] => destruct (im_to_vis_value a b c e im u l fr cv (-1) sgn_fourier) as (V & EV & HV) end.
  rewrite EV. rewrite (HV r f 0%nat) by lia. cbn [csum]. destruct (LM d D) as [A B]. unfold src_delay. rewrite Nat.add_0_r, A, B, stokes_flux.
  rewrite (path_delay pc (nth d sky no_source) (uvw r)) by (apply IF; now apply nth_In).
  replace (-1 * path_phase pc (nth d sky no_source) (uvw r) (freq f)) with (- path_phase pc (nth d sky no_source) (uvw r) (freq f)) by ring.
  unfold polar. apply injective_projections; cbn; ring.
Qed.
Lemma polar_less x y ph : csub (c := RC) (polar (x / y) ph) (polar x ph) = polar (x * (1 / y - 1)) ph.
Proof. unfold polar. apply injective_projections; cbn; unfold Rdiv; ring. Qed.
Section Calibrate.
  Context (nrow : nat) (time : arr Z) (upc nant : nat) (ant1 ant2 : arr nat) (nchan : nat) (uvw : arr2 R) (freq : arr R) (pc : R * R) (sky : list sky_source)
    (alphas : nat -> nat -> arr2 R) (us : list Z) (top : R).
  Context (HN : (0 < nrow)%nat) (HU : (0 < upc)%nat) (HS : sorted_times nrow time) (HD : distinct_times nrow time us)
    (NE : sky <> []) (IF : in_front pc sky) (PO : positive nchan freq) (TOP : is_top nchan freq top).
  Lemma calibrate_residual flag : exists out g idx cnts v m tbi' res,
    simulate nrow time upc nant ant1 ant2 nchan nchan 4 uvw freq pc sky alphas = Ok (out, g) /\
    calibration_inputs nrow time upc nchan 4 out uvw freq pc sky = Ok (idx, cnts, v, m) /\
    residual_vis (length idx) (fun t => Z.of_nat (nth t idx 0%nat)) (fun t => nth t cnts 0%nat) ant1 ant2 g v flag m = Ok (tbi', res) /\
    forall r f k t, (r < nrow)%nat -> (f < nchan)%nat -> (k < 2)%nat -> (t < length us)%nat -> nth t us 0%Z = time r ->
      (forall c, (c < 2)%nat -> flag r f c 0%nat = false) ->
      v_at res r f k 0%nat = (left_over pc sky alphas top ant1 ant2 uvw freq t r f k : RCF).
  Proof.
    destruct (simulate_main nrow time upc nant ant1 ant2 nchan 4 uvw freq pc sky alphas us top HN HU HS HD ltac:(right; now right) NE IF PO TOP)
      as (out & g & E & G1 & G2 & G3 & GA & H).
    destruct (calibration_model_value nrow nchan uvw freq pc sky NE IF) as (m & EM & MD & MV).
    destruct (chunkify_rows_main nrow time upc HU) as (rows & idx & cnts & us' & EC & HD' & L1 & L2 & _ & CL & _ & SUM & BIN).
    assert (us' = us) as -> by (eapply distinct_unique; eassumption).
    destruct (chunkify_aligned nrow time upc HU rows idx cnts EC) as (DIS & MIN & _ & AL). destruct (MIN HN) as [NI MN]. clear MIN.
    set (v := {| v_ndim := 3; v_row := nrow; v_chan := nchan; v_corr := 2; v_at := fun r f c _ => out r f (3 * c)%nat |} : vis_arr RCF).
    destruct (residual_vis_spec RCF_laws (length idx) (fun t => Z.of_nat (nth t idx 0%nat)) (fun t => nth t cnts 0%nat) ant1 ant2 g v flag m DIAG_DIAG 0%Z)
      as (tbi' & res & ER & _ & _ & _ & _ & _ & W); [rewrite G1; reflexivity|exact NI|exact MN|exact DIS|].
    exists out, g, idx, cnts, v, m, tbi', res. split; [exact E|]. split.
    { unfold calibration_inputs. rewrite EC. cbn [bind]. unfold take_diagonal. cbn [Nat.leb bind]. rewrite EM. reflexivity. }
    split; [exact ER|]. intros r f k t R F K2 T ET NF.
    assert (IB : in_bin (fun t => Z.of_nat (nth t idx 0%nat)) 0 (fun t => nth t cnts 0%nat) t r).
    { pose proof (proj2 (BIN HS t r T R) (eq_sym ET)) as X. unfold in_bin. lia. }
    destruct (W r f F) as [W1 _]. rewrite (W1 t ltac:(lia) IB) with (i := k) (j := 0%nat); [| |cbn; auto].
    - unfold jsub, corrupted. rewrite MD.
      assert (VV : v_at v r f k 0%nat = screened pc sky alphas top ant1 ant2 uvw freq t r f k).
      { cbn [v v_at]. rewrite (H r f (3 * k)%nat t R F ltac:(lia) T ET). destruct k as [|[|]]; [reflexivity|reflexivity|lia]. }
      assert (MM : jsum (length sky) (fun s => gsandwich DIAG_DIAG (j_at g t (ant1 r) f s) (m_at m r f s) (j_at g t (ant2 r) f s)) k 0%nat =
        csum (K := RC) (length sky) (fun d => polar (flux_at (nth d sky no_source) (freq f)) (total_phase pc alphas top ant1 ant2 uvw freq t r f k (nth d sky no_source)))).
      { unfold jsum. apply csum_ext. intros d D. rewrite vector_term, !GA, MV by auto. rewrite polar_sandwich. reflexivity. }
      rewrite VV, MM. unfold screened, left_over. etransitivity; [symmetry; apply csum_sub|]. apply csum_ext. intros d D. cbv zeta. apply polar_less.
    - intros (i & j & IJ & FL). cbn in IJ. destruct IJ as [I2 ->]. rewrite NF in FL by exact I2. discriminate.
  Qed.
End Calibrate.
Lemma left_over_centre pc sky alphas top ant1 ant2 uvw freq t r f k : (forall s, In s sky -> cos_n pc s = 1) ->
  left_over pc sky alphas top ant1 ant2 uvw freq t r f k = (c0 : RC).
Proof.
  intros H. unfold left_over. rewrite <- (csum_0 RC_laws (length sky)). apply csum_ext. intros d D. cbv zeta. rewrite (H _ (nth_In sky no_source D)).
  unfold polar. apply injective_projections; cbn; field.
Qed.
Lemma left_over_single pc s alphas top ant1 ant2 uvw freq t r f k : 
  norm2 (left_over pc [s] alphas top ant1 ant2 uvw freq t r f k) = (flux_at s (freq f) * (1 / cos_n pc s - 1)) ^ 2.
Proof.
  unfold left_over. cbn [length csum nth]. unfold polar. set (a := flux_at s (freq f) * _). set (b := total_phase _ _ _ _ _ _ _ _ _ _ _ _).
  pose proof (cis_norm2 b) as N. unfold norm2, re, im in *. cbn in *. transitivity (a ^ 2 * (cos b * cos b + sin b * sin b)); [ring|]. rewrite N. ring.
Qed.
Lemma calibrate_few nrow time upc nchan ncorr data uvw freq pc sky : (0 < upc)%nat -> (ncorr <= 3)%nat ->
  calibration_inputs nrow time upc nchan ncorr data uvw freq pc sky = Raise IndexError.
Proof.
  intros U C. destruct (chunkify_ok nrow time upc U) as (rows & idx & cnts & E). unfold calibration_inputs. rewrite E. cbn [bind]. unfold take_diagonal.
  destruct (Nat.leb_spec ncorr 3); [reflexivity|lia].
Qed.

(* ---------- time varying sources ---------- *)
Lemma spectra_bool sky : existsb (fun s => match s_spec s with None => true | Some _ => false end) sky = false <-> all_spectra sky.
Proof.
  unfold all_spectra. split.
  - intros H s I N. assert (X : existsb (fun s => match s_spec s with None => true | Some _ => false end) sky = true); [|congruence].
    apply existsb_exists. exists s. split; [exact I|]. now rewrite N.
  - intros H. destruct (existsb _ _) eqn:X; [|reflexivity]. apply existsb_exists in X. destruct X as (s & I & Q). specialize (H s I). destruct (s_spec s); [discriminate|contradiction].
Qed.
Section Varying.
  Context (nrow : nat) (time : arr Z) (upc nant : nat) (ant1 ant2 : arr nat) (nchan : nat) (uvw : arr2 R) (freq : arr R) (pc : R * R) (sky : list sky_source)
    (g : gain_arr RCF) (us : list Z).
  Lemma varying_main : (0 < nrow)%nat -> (0 < upc)%nat -> sorted_times nrow time -> distinct_times nrow time us -> sky <> [] -> in_front pc sky -> all_spectra sky ->
    j_ndim g = 5%nat -> j_tim g = length us ->
    exists out, apply_to_sources nrow time upc nant ant1 ant2 nchan uvw freq 1%nat pc sky g = Ok out /\
      forall r f t, (r < nrow)%nat -> (f < nchan)%nat -> (t < length us)%nat -> nth t us 0%Z = time r ->
        out r f 0%nat = (gained pc sky ant1 ant2 uvw freq g t r f 0%nat : RCF).
  Proof.
    intros HN HU HS HD NE IF AS J5 JT. destruct (chunkify_ok nrow time upc HU) as (rows & idx & cnts & E). destruct (lm_all sky pc NE) as (lm & EL & LM).
    destruct (seen_all nrow time upc us rows idx cnts g HU HD E JT) as (SG & _ & HJ).
    destruct (corrupt_image_spec nrow time upc nant ant1 ant2 nchan (sky_image sky nchan freq 1) g uvw freq (fun _ => lm) (image_mode 1) us rows idx cnts
      HN HU HS HD E) as (out & EO & H); [rewrite J5; apply image_check|reflexivity|now left|].
    rewrite SG in H. unfold apply_to_sources. rewrite E. cbn [bind Nat.eqb negb]. rewrite (proj2 (spectra_bool sky) AS), EL. cbn [bind]. rewrite J5. cbn [Nat.ltb Nat.leb].
    rewrite EO. cbn [bind]. eexists. split; [reflexivity|]. intros r f t R F T ET. cbn beta. specialize (H r f t R F T ET).
    exact (image_sum sky nchan freq 1 uvw pc lm t r f 0 _ _ ltac:(now left) ltac:(lia) IF LM (out r f) H).
  Qed.
  Lemma varying_refuses nfield : (0 < upc)%nat ->
    (nfield <> 1%nat -> apply_to_sources nrow time upc nant ant1 ant2 nchan uvw freq nfield pc sky g = Raise ValueError) /\
    (nfield = 1%nat -> ~ all_spectra sky -> apply_to_sources nrow time upc nant ant1 ant2 nchan uvw freq nfield pc sky g = Raise AttributeErrorExn) /\
    (nfield = 1%nat -> all_spectra sky -> sky <> [] -> (j_ndim g < 4)%nat -> apply_to_sources nrow time upc nant ant1 ant2 nchan uvw freq nfield pc sky g = Raise IndexError) /\
    (nfield = 1%nat -> all_spectra sky -> sky <> [] -> (4 <= j_ndim g)%nat -> j_ndim g <> 5%nat -> apply_to_sources nrow time upc nant ant1 ant2 nchan uvw freq nfield pc sky g = Raise RuntimeError) /\
    (nfield = 1%nat -> all_spectra sky -> sky <> [] -> j_ndim g = 5%nat -> distinct_times nrow time us ->
      (exists c, ~ (c * upc < j_tim g <-> c * upc < length us)%nat) -> (j_tim g = 0 \/ upc < j_tim g)%nat ->
      apply_to_sources nrow time upc nant ant1 ant2 nchan uvw freq nfield pc sky g = Raise ValueError).
  Proof.
    intros U. destruct (chunkify_rows_main nrow time upc U) as (rows & idx & cnts & us' & E & HD' & _ & _ & _ & CL & _). unfold apply_to_sources. rewrite E. cbn [bind].
    split; [|split; [|split; [|split]]].
    - intros N. destruct (Nat.eqb_spec nfield 1); [contradiction|reflexivity].
    - intros -> N. cbn [Nat.eqb negb]. destruct (existsb _ sky) eqn:X; [reflexivity|]. destruct N. now apply spectra_bool.
    - intros -> AS NE J. cbn [Nat.eqb negb]. rewrite (proj2 (spectra_bool sky) AS). destruct (lm_all sky pc NE) as (lm & EL & _). rewrite EL. cbn [bind].
      destruct (Nat.ltb_spec (j_ndim g) 4); [reflexivity|lia].
    - intros -> AS NE J J5. cbn [Nat.eqb negb]. rewrite (proj2 (spectra_bool sky) AS). destruct (lm_all sky pc NE) as (lm & EL & _). rewrite EL. cbn [bind].
      destruct (Nat.ltb_spec (j_ndim g) 4); [lia|]. unfold corrupt_image. cbv zeta. fold (ApplyGainsProofs.seen upc (length rows) g). destruct (seen_shape upc (length rows) g) as [S1 S2].
      unfold dask_compute_and_corrupt, chunked_axis. cbn [cc_jant cc_jdir cc_mdir hd]. rewrite S1, S2, !Nat.eqb_refl. cbn [negb Nat.eqb sky_image i_ndim].
      unfold check_type. cbn [bind Nat.eqb]. destruct (Nat.eqb_spec (j_ndim g) 5); [contradiction|reflexivity].
    - intros -> AS NE J5 HD (c & C) HJ. assert (us' = us) as -> by (eapply distinct_unique; eassumption). cbn [Nat.eqb negb]. rewrite (proj2 (spectra_bool sky) AS).
      destruct (lm_all sky pc NE) as (lm & EL & _). rewrite EL. cbn [bind]. rewrite J5. cbn [Nat.ltb Nat.leb]. unfold corrupt_image. cbv zeta.
      fold (ApplyGainsProofs.seen upc (length rows) g). destruct (seen_shape upc (length rows) g) as [S1 S2].
      unfold dask_compute_and_corrupt. repeat (destruct (chunked_axis _ _); [reflexivity|]). rewrite S1, J5, image_check. cbn [bind].
      assert (Q1 : length (chunk_sizes (j_tim g) upc) <> length rows).
      { intros X. apply C. rewrite <- CL, <- X. now rewrite sizes_length. }
      assert (Q2 : length (chunk_sizes (j_tim g) upc) <> 1%nat).
      { pose proof (sizes_length (j_tim g) upc 0 U). pose proof (sizes_length (j_tim g) upc 1 U). destruct HJ; lia. }
      destruct (Nat.eqb_spec (length (chunk_sizes (j_tim g) upc)) (length rows)); [contradiction|].
      destruct (Nat.eqb_spec (length (chunk_sizes (j_tim g) upc)) 1); [contradiction|]. reflexivity.
  Qed.
End Varying.

(* ---------- corollaries ---------- *)
Lemma row_time nrow time us r : distinct_times nrow time us -> (r < nrow)%nat -> exists t, (t < length us)%nat /\ nth t us 0%Z = time r.
Proof. intros HD R. destruct (In_nth us (time r) 0%Z (proj2 (proj2 HD (time r)) (ex_intro _ r (conj R eq_refl)))) as (t & T & ET). eauto. Qed.
Lemma simulate_chunks nrow time upc upc' nant ant1 ant2 nchan ncorr uvw freq pc sky alphas us top :
  (0 < nrow)%nat -> (0 < upc)%nat -> (0 < upc')%nat -> sorted_times nrow time -> distinct_times nrow time us -> good_corr ncorr ->
  sky <> [] -> in_front pc sky -> positive nchan freq -> is_top nchan freq top ->
  exists out out' g g', simulate nrow time upc nant ant1 ant2 nchan nchan ncorr uvw freq pc sky alphas = Ok (out, g) /\
    simulate nrow time upc' nant ant1 ant2 nchan nchan ncorr uvw freq pc sky alphas = Ok (out', g') /\
    forall r f c, (r < nrow)%nat -> (f < nchan)%nat -> (c < ncorr)%nat -> out r f c = out' r f c.
Proof.
  intros HN HU HU' HS HD GC NE IF PO TOP.
  destruct (simulate_main nrow time upc nant ant1 ant2 nchan ncorr uvw freq pc sky alphas us top HN HU HS HD GC NE IF PO TOP) as (out & g & E & _ & _ & _ & _ & H).
  destruct (simulate_main nrow time upc' nant ant1 ant2 nchan ncorr uvw freq pc sky alphas us top HN HU' HS HD GC NE IF PO TOP) as (out' & g' & E' & _ & _ & _ & _ & H').
  exists out, out', g, g'. split; [exact E|]. split; [exact E'|]. intros r f c R F C. destruct (row_time nrow time us r HD R) as (t & T & ET).
  now rewrite (H r f c t R F C T ET), (H' r f c t R F C T ET).
Qed.
Lemma simulate_refuses_all nrow time upc nant ant1 ant2 nflag nchan ncorr uvw freq pc sky alphas :
  (upc = 0%nat -> simulate nrow time upc nant ant1 ant2 nflag nchan ncorr uvw freq pc sky alphas = Raise ValueError) /\
  ((0 < upc)%nat ->
    (~ good_corr ncorr -> simulate nrow time upc nant ant1 ant2 nflag nchan ncorr uvw freq pc sky alphas = Raise RuntimeError) /\
    (good_corr ncorr -> nchan <> nflag -> simulate nrow time upc nant ant1 ant2 nflag nchan ncorr uvw freq pc sky alphas = Raise AssertionError) /\
    (good_corr ncorr -> nchan = nflag -> sky = [] -> simulate nrow time upc nant ant1 ant2 nflag nchan ncorr uvw freq pc sky alphas = Raise TypeError)).
Proof. split; [intros ->; apply simulate_zero|apply simulate_refuses]. Qed.
Lemma calibrate_centre nrow time upc nant ant1 ant2 nchan uvw freq pc sky alphas us top :
  (0 < nrow)%nat -> (0 < upc)%nat -> sorted_times nrow time -> distinct_times nrow time us ->
  sky <> [] -> (forall s, In s sky -> cos_n pc s = 1) -> positive nchan freq -> is_top nchan freq top -> forall flag,
  exists out g idx cnts v m tbi' res,
    simulate nrow time upc nant ant1 ant2 nchan nchan 4 uvw freq pc sky alphas = Ok (out, g) /\
    calibration_inputs nrow time upc nchan 4 out uvw freq pc sky = Ok (idx, cnts, v, m) /\
    residual_vis (length idx) (fun t => Z.of_nat (nth t idx 0%nat)) (fun t => nth t cnts 0%nat) ant1 ant2 g v flag m = Ok (tbi', res) /\
    forall r f k, (r < nrow)%nat -> (f < nchan)%nat -> (k < 2)%nat -> (forall c, (c < 2)%nat -> flag r f c 0%nat = false) ->
      v_at res r f k 0%nat = (c0 : RCF).
Proof.
  intros HN HU HS HD NE CE PO TOP flag.
  destruct (calibrate_residual nrow time upc nant ant1 ant2 nchan uvw freq pc sky alphas us top HN HU HS HD NE ltac:(intros s I; rewrite (CE s I); lra) PO TOP flag)
    as (out & g & idx & cnts & v & m & tbi' & res & E1 & E2 & E3 & H).
  exists out, g, idx, cnts, v, m, tbi', res. split; [exact E1|]. split; [exact E2|]. split; [exact E3|]. intros r f k R F K2 NF.
  destruct (row_time nrow time us r HD R) as (t & T & ET). rewrite (H r f k t R F K2 T ET NF). now apply left_over_centre.
Qed.
Lemma calibrate_single nrow time upc nant ant1 ant2 nchan uvw freq pc s alphas us top :
  (0 < nrow)%nat -> (0 < upc)%nat -> sorted_times nrow time -> distinct_times nrow time us ->
  0 < cos_n pc s -> positive nchan freq -> is_top nchan freq top -> forall flag,
  exists out g idx cnts v m tbi' res,
    simulate nrow time upc nant ant1 ant2 nchan nchan 4 uvw freq pc [s] alphas = Ok (out, g) /\
    calibration_inputs nrow time upc nchan 4 out uvw freq pc [s] = Ok (idx, cnts, v, m) /\
    residual_vis (length idx) (fun t => Z.of_nat (nth t idx 0%nat)) (fun t => nth t cnts 0%nat) ant1 ant2 g v flag m = Ok (tbi', res) /\
    forall r f k, (r < nrow)%nat -> (f < nchan)%nat -> (k < 2)%nat -> (forall c, (c < 2)%nat -> flag r f c 0%nat = false) ->
      norm2 (v_at res r f k 0%nat) = (flux_at s (freq f) * (1 / cos_n pc s - 1)) ^ 2.
Proof.
  intros HN HU HS HD CE PO TOP flag.
  destruct (calibrate_residual nrow time upc nant ant1 ant2 nchan uvw freq pc [s] alphas us top HN HU HS HD ltac:(discriminate) ltac:(intros x [<-|[]]; exact CE) PO TOP flag)
    as (out & g & idx & cnts & v & m & tbi' & res & E1 & E2 & E3 & H).
  exists out, g, idx, cnts, v, m, tbi', res. split; [exact E1|]. split; [exact E2|]. split; [exact E3|]. intros r f k R F K2 NF.
  destruct (row_time nrow time us r HD R) as (t & T & ET). rewrite (H r f k t R F K2 T ET NF). apply left_over_single.
Qed.
Lemma calibrate_needs_four nrow time upc nant ant1 ant2 nchan ncorr uvw freq pc sky alphas us top :
  (0 < nrow)%nat -> (0 < upc)%nat -> sorted_times nrow time -> distinct_times nrow time us -> ncorr = 1%nat \/ ncorr = 2%nat ->
  sky <> [] -> in_front pc sky -> positive nchan freq -> is_top nchan freq top ->
  exists out g, simulate nrow time upc nant ant1 ant2 nchan nchan ncorr uvw freq pc sky alphas = Ok (out, g) /\
    calibration_inputs nrow time upc nchan ncorr out uvw freq pc sky = Raise IndexError.
Proof.
  intros HN HU HS HD GC NE IF PO TOP.
  destruct (simulate_main nrow time upc nant ant1 ant2 nchan ncorr uvw freq pc sky alphas us top HN HU HS HD ltac:(unfold good_corr; tauto) NE IF PO TOP) as (out & g & E & _).
  exists out, g. split; [exact E|]. apply calibrate_few; [exact HU|lia].
Qed.
Definition far_source : sky_source := {| s_ra := PI / 3; s_dec := 0; s_flux := 1; s_spec := None |}.
Lemma far_n : cos_n (0, 0) far_source = 1 / 2.
Proof. unfold cos_n, dot, direction, far_source. cbn [s_ra s_dec fst snd]. rewrite cos_PI3, cos_0, sin_0. field. Qed.
Lemma calibrate_refuted : exists nrow time upc nant ant1 ant2 nchan uvw freq pc sky alphas us top,
  (0 < nrow)%nat /\ (0 < upc)%nat /\ sorted_times nrow time /\ distinct_times nrow time us /\
  sky <> [] /\ in_front pc sky /\ positive nchan freq /\ is_top nchan freq top /\
  exists out g idx cnts v m tbi' res,
    simulate nrow time upc nant ant1 ant2 nchan nchan 4 uvw freq pc sky alphas = Ok (out, g) /\
    calibration_inputs nrow time upc nchan 4 out uvw freq pc sky = Ok (idx, cnts, v, m) /\
    residual_vis (length idx) (fun t => Z.of_nat (nth t idx 0%nat)) (fun t => nth t cnts 0%nat) ant1 ant2 g v (fun _ _ _ _ => false) m = Ok (tbi', res) /\
    norm2 (v_at res 0%nat 0%nat 0%nat 0%nat) = 1.
Proof.
  assert (A1 : (0 < 1)%nat) by lia. assert (A2 : sorted_times 1 (fun _ => 3%Z)) by (intros r r' _ _; lia).
  assert (A3 : distinct_times 1 (fun _ => 3%Z) [3%Z]).
  { split; [repeat constructor|]. intros x. cbn. split; [intros [<-|[]]; exists 0%nat; split; [lia|reflexivity]|intros (r & _ & <-); now left]. }
  assert (A4 : 0 < cos_n (0, 0) far_source) by (rewrite far_n; lra). assert (A5 : positive 1 (fun _ => 1)) by (intros f _; lra).
  assert (A6 : is_top 1 (fun _ => 1) 1) by (split; [exists 0%nat; split; [lia|reflexivity]|intros f _; lra]).
  exists 1%nat, (fun _ => 3%Z), 1%nat, 2%nat, (fun _ => 0%nat), (fun _ => 1%nat), 1%nat, (fun _ _ => 1), (fun _ => 1), (0, 0), [far_source], (fun _ _ _ _ => 1), [3%Z], 1.
  split; [exact A1|]. split; [exact A1|]. split; [exact A2|]. split; [exact A3|]. split; [discriminate|]. split; [intros s [<-|[]]; exact A4|]. split; [exact A5|]. split; [exact A6|].
  destruct (calibrate_single 1 (fun _ => 3%Z) 1 2 (fun _ => 0%nat) (fun _ => 1%nat) 1 (fun _ _ => 1) (fun _ => 1) (0, 0) far_source (fun _ _ _ _ => 1) [3%Z] 1 A1 A1 A2 A3 A4 A5 A6 (fun _ _ _ _ => false))
    as (out & g & idx & cnts & v & m & tbi' & res & E1 & E2 & E3 & H).
  exists out, g, idx, cnts, v, m, tbi', res. split; [exact E1|]. split; [exact E2|]. split; [exact E3|]. rewrite H by (auto; lia). rewrite far_n. cbn [flux_at far_source s_spec s_flux]. field.
Qed.
