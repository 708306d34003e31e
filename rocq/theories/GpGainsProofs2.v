(* C109: proofs about the script. *)
From Coq Require Import Reals Lra Lia Sorting.Sorted.
From Verif Require Import Prelude PreludeFacts CRing CplxR NumpyModel AvgModel AvgSpec SortFacts AvgProofs AvgProofs2 AvgProofs3 AvgProofs4 CalSpec ApplyGainsProofs KronModel KronSpec KronProofs CoordModel CoordSpec CoordProofs
  GpsModel GpsSpec GpsProofs ScreenModel ScreenSpec ScreenProofs GpGainsModel GpGainsSpec GpGainsProofs.
Open Scope R_scope.

(* ---------- the axes ---------- *)
Lemma fmin_bottom n x : (0 < n)%nat -> is_bottom n x (fmin n x).
Proof.
  induction n as [|n IH]; [lia|]. intros _. destruct n as [|n].
  - split; [exists 0%nat; split; [lia|reflexivity]|]. intros f F. assert (f = 0%nat) as -> by lia. apply Rle_refl.
  - destruct (IH ltac:(lia)) as [(f0 & F0 & E) T]. change (fmin (S (S n)) x) with (Rmin (fmin (S n) x) (x (S n))). split.
    + unfold Rmin. destruct (Rle_dec _ _); [exists f0; split; [lia|exact E]|exists (S n); split; [lia|reflexivity]].
    + intros f F. destruct (Nat.eq_dec f (S n)) as [->|N]; [apply Rmin_r|]. eapply Rle_trans; [apply Rmin_l|]. apply T. lia.
Qed.
Lemma bottom_unique n x a b : is_bottom n x a -> is_bottom n x b -> a = b.
Proof. intros [(f & F & <-) A] [(h & H & <-) B]. apply Rle_antisym; auto. Qed.
Lemma is_bottom_pos n x a : is_bottom n x a -> (0 < n)%nat.
Proof. intros [(i & I & _) _]. lia. Qed.
Lemma normalise_spec n x lo hi : is_bottom n x lo -> is_top n x hi ->
  (lo = hi -> normalise n x = None) /\ (lo < hi -> exists y, normalise n x = Some y /\ forall i, y i = (x i - lo) / (hi - lo)).
Proof.
  intros B T. pose proof (is_bottom_pos _ _ _ B) as P. pose proof (bottom_unique _ _ _ _ (fmin_bottom n x P) B) as EB. unfold normalise. rewrite EB.
  assert (ET : fmax n (fun i => x i - lo) = hi - lo).
  { apply (top_unique n (fun i => x i - lo)); [now apply fmax_top|]. destruct T as [(i & I & E) T]. split; [exists i; split; [exact I|now rewrite E]|].
    intros j J. specialize (T j J). lra. }
  rewrite ET. split; intros H; destruct (Req_EM_T (hi - lo) 0) as [Z|Z]; try (exfalso; lra); [reflexivity|]. eexists. split; [reflexivity|]. reflexivity.
Qed.
Lemma unique_us nrow time us : distinct_times nrow time us -> exists a b c, unique_internal Z.ltb zneqb nrow time = (us, a, b, c).
Proof.
  intros D. destruct (unique_internal Z.ltb zneqb nrow time) as [[[us' ids] inv] cnts] eqn:EU. exists ids, inv, cnts.
  destruct (unique_internal_full Z.ltb zneqb Zltb_order zneqb_spec nrow _ _ _ _ _ EU) as (A1 & A2 & _).
  assert (us' = us) as ->; [|reflexivity]. apply (distinct_unique nrow time); [|exact D]. split; [|exact A2].
  clear -A1. induction A1 as [|x l S IH Fa]; constructor; [exact IH|]. rewrite Forall_forall in *. intros y Hy. apply Z.ltb_lt. auto.
Qed.
Lemma us_in nrow time us t : distinct_times nrow time us -> (t < length us)%nat -> exists r, (r < nrow)%nat /\ time r = nth t us 0%Z.
Proof. intros [_ D] T. apply D, nth_In. exact T. Qed.
Lemma in_us nrow time us r : distinct_times nrow time us -> (r < nrow)%nat -> exists t, (t < length us)%nat /\ nth t us 0%Z = time r.
Proof. intros [_ D] T. apply In_nth. apply D. now exists r. Qed.
Lemma us_bottom nrow time us lo : distinct_times nrow time us -> is_bottom nrow (fun r => IZR (time r)) lo -> is_bottom (length us) (fun t => IZR (nth t us 0%Z)) lo.
Proof.
  intros D [(r & Hr & E) B]. split.
  - destruct (in_us _ _ _ _ D Hr) as (t & T & E'). exists t. split; [exact T|]. now rewrite E'.
  - intros t T. destruct (us_in _ _ _ _ D T) as (r' & R' & <-). now apply B.
Qed.
Lemma us_top nrow time us hi : distinct_times nrow time us -> is_top nrow (fun r => IZR (time r)) hi -> is_top (length us) (fun t => IZR (nth t us 0%Z)) hi.
Proof.
  intros D [(r & Hr & E) B]. split.
  - destruct (in_us _ _ _ _ D Hr) as (t & T & E'). exists t. split; [exact T|]. now rewrite E'.
  - intros t T. destruct (us_in _ _ _ _ D T) as (r' & R' & <-). now apply B.
Qed.

(* ---------- covariances ---------- *)
Definition raw (s l d : R) : R := s * s * exp (- (d * d) / (2 * (l * l))).
Lemma raw_gauss s l d : raw s l d = gauss s l d.
Proof. unfold raw, gauss. f_equal; [ring|]. f_equal. f_equal; [ring|]. cbn. ring. Qed.
Lemma cov_axis n x s l : l <> 0 -> exists a, cov (Pflat n x) s l = Ok a /\ m_r a = n /\ m_c a = n /\ (forall i j, m_e a i j = gauss s l (Rabs (x i - x j))) /\ psd n (m_e a).
Proof.
  intros Hl. unfold cov, exponential_squared, abs_diff. cbn [size_of flat]. rewrite Nat.ltb_irrefl. cbn [bind].
  eexists. split; [reflexivity|]. split; [reflexivity|]. split; [reflexivity|]. split.
  - intros i j. cbn [m_e]. rewrite <- raw_gauss. unfold raw. cbn [csum].
    assert (E : sqrt (cadd (c0 : RR) ((x i - x j) * (x i - x j))) = Rabs (x i - x j)).
    { rewrite <- sqrt_Rsqr_abs. f_equal. cbn. unfold Rsqr. ring. }
    rewrite E. reflexivity.
  - exact (psd_gauss n 1 (fun i _ => x i) s l Hl).
Qed.
Lemma cov_plane n x s l : l <> 0 -> exists a, cov (P2 n 2 x) s l = Ok a /\ m_r a = n /\ m_c a = n /\
  (forall i j, m_e a i j = gauss s l (sqrt ((x i 0%nat - x j 0%nat) ^ 2 + (x i 1%nat - x j 1%nat) ^ 2))) /\ psd n (m_e a).
Proof.
  intros Hl. unfold cov, exponential_squared, abs_diff. rewrite Nat.ltb_irrefl. cbn [bind].
  eexists. split; [reflexivity|]. split; [reflexivity|]. split; [reflexivity|]. split.
  - intros i j. cbn [m_e]. rewrite <- raw_gauss. unfold raw. cbn [csum].
    assert (E : sqrt (cadd (cadd (c0 : RR) ((x i 0%nat - x j 0%nat) * (x i 0%nat - x j 0%nat))) ((x i 1%nat - x j 1%nat) * (x i 1%nat - x j 1%nat)))
      = sqrt ((x i 0%nat - x j 0%nat) ^ 2 + (x i 1%nat - x j 1%nat) ^ 2)). { f_equal. cbn. ring. }
    rewrite E. reflexivity.
  - exact (psd_gauss n 2 x s l Hl).
Qed.
Lemma gauss_sym s l a b : a = b -> gauss s l a = gauss s l b.
Proof. now intros ->. Qed.

(* ---------- factors ---------- *)
Definition tiny : R := 1 / 10 ^ 13.
Lemma tiny_pos : 0 < tiny.
Proof. unfold tiny. apply Rdiv_lt_0_compat; [lra|]. apply pow_lt. lra. Qed.
Definition plus_diag (a : mat RR) (e : R) : mat RR := {| m_r := m_r a; m_c := m_r a; m_e := fun i j => (m_e a i j + on_diagonal e i j : RR) |}.
Lemma form_diag n e x : form n (on_diagonal e) x = e * rsum n (fun i => x i * x i).
Proof.
  unfold form. rewrite (rsum_ext n _ (fun i => e * (x i * x i))); [apply rsum_mul|]. intros i Hi.
  etransitivity; [apply (csum_only RR_laws n i); [exact Hi|]|].
  - intros j Hj NE. unfold on_diagonal. destruct (Nat.eqb_spec i j); [congruence|]. cbn. ring.
  - unfold on_diagonal. rewrite Nat.eqb_refl. cbn. ring.
Qed.
Lemma squares_nonneg n x : 0 <= rsum n (fun i => x i * x i).
Proof. induction n as [|n IH]; [cbn; lra|]. change (0 <= rsum n (fun i => x i * x i) + x n * x n). nra. Qed.
Lemma squares_pos n x i : (i < n)%nat -> x i <> 0 -> 0 < rsum n (fun i => x i * x i).
Proof.
  induction n as [|n IH]; [lia|]. intros Hi NZ. change (0 < rsum n (fun i => x i * x i) + x n * x n). pose proof (squares_nonneg n x).
  destruct (Nat.eq_dec i n) as [->|N]; [assert (0 < x n * x n) by (apply Rsqr_pos_lt in NZ; exact NZ); lra|]. specialize (IH ltac:(lia) NZ). nra.
Qed.
Lemma factor_step chol (a : mat RR) : cholesky_routine chol -> m_r a = m_c a -> (0 < m_r a)%nat -> (forall i j, m_e a i j = m_e a j i) -> psd (m_r a) (m_e a) ->
  exists e l, jitter e /\ (match chol a with Ok l => Ok l | Raise _ => chol (add_jitter (tiny : RR) a) end) = Ok l /\ factor_of l (plus_diag a e).
Proof.
  intros [CS CC] SQ P SY PS. destruct (chol a) as [l|x] eqn:E.
  - exists 0, l. split; [now left|]. split; [reflexivity|]. destruct (CS _ _ E) as (R1 & R2 & G). split; [exact R1|]. split; [exact R2|]. intros i j Hi Hj. cbn [plus_diag m_r m_e] in *.
    rewrite (G i j Hi Hj). unfold on_diagonal. destruct (Nat.eqb i j); symmetry; apply Rplus_0_r.
  - destruct (CC (add_jitter (tiny : RR) a)) as (l & El); [exact P| |].
    + split; [exact SQ|]. split; [intros i j; cbn; rewrite (SY i j), (Nat.eqb_sym j i); reflexivity|]. intros y (i & Hi & NZ). cbn [add_jitter m_r] in *.
      pose proof (form_add (m_r a) (m_e a) (on_diagonal tiny) y) as FA. rewrite form_diag in FA. pose proof (squares_pos _ _ _ Hi NZ). pose proof tiny_pos. specialize (PS y).
      assert (0 < form (m_r a) (fun i j => m_e a i j + on_diagonal tiny i j) y) by (rewrite FA; assert (0 < tiny * rsum (m_r a) (fun i => y i * y i)) by (apply Rmult_lt_0_compat; assumption); lra).
      exact H1.
    + exists tiny, l. split; [right; reflexivity|]. split; [exact El|]. exact (CS _ _ El).
Qed.

(* ---------- Kronecker products of three matrices ---------- *)
Lemma kentry3 (a b c : mat RR) nt nf nd t f d t' f' d' : m_r a = nt -> m_c a = nt -> m_r b = nf -> m_c b = nf -> m_r c = nd -> m_c c = nd ->
  (f < nf)%nat -> (d < nd)%nat -> (f' < nf)%nat -> (d' < nd)%nat ->
  kentry [a; b; c] ((t * nf + f) * nd + d) ((t' * nf + f') * nd + d') = m_e a t t' * m_e b f f' * m_e c d d'.
Proof.
  intros A1 A2 B1 B2 C1 C2 F D F' D'. cbn [kentry krows kcols fold_right]. rewrite B1, B2, C1, C2, !Nat.mul_1_r, !Nat.div_1_r.
  assert (X : forall t f d, (f < nf)%nat -> (d < nd)%nat -> (((t * nf + f) * nd + d) / (nf * nd) = t /\ ((t * nf + f) * nd + d) mod (nf * nd) = f * nd + d)%nat).
  { intros u v w V W. replace ((u * nf + v) * nd + w)%nat with (u * (nf * nd) + (v * nd + w))%nat by ring. split; [apply div_pair|apply mod_pair]; nia. }
  destruct (X t f d F D) as [-> ->]. destruct (X t' f' d' F' D') as [-> ->].
  rewrite !div_pair, !mod_pair by assumption. change (m_e a t t' * (m_e b f f' * (m_e c d d' * 1)) = m_e a t t' * m_e b f f' * m_e c d d'). ring.
Qed.
Lemma krows3 (a b c : mat RR) : krows [a; b; c] = (m_r a * m_r b * m_r c)%nat.
Proof. cbn. lia. Qed.

(* ---------- antennas ---------- *)
Lemma antennas_spec nrow ant1 ant2 nant : number_of_antennas nrow ant1 ant2 nant -> antennas nrow ant1 ant2 = nant.
Proof.
  intros [A (r & Hr & E)].
  assert (U : forall n, (forall r, (r < n)%nat -> (ant1 r < nant /\ ant2 r < nant)%nat) -> (antennas n ant1 ant2 <= nant)%nat).
  { induction n as [|n IH]; intros H; cbn [antennas]; [lia|]. destruct (H n ltac:(lia)). specialize (IH ltac:(intros; apply H; lia)). lia. }
  assert (W : forall n r, (r < n)%nat -> (S (ant1 r) <= antennas n ant1 ant2 /\ S (ant2 r) <= antennas n ant1 ant2)%nat).
  { induction n as [|n IH]; intros q Q; [lia|]. cbn [antennas]. destruct (Nat.eq_dec q n) as [->|N]; [lia|]. specialize (IH q ltac:(lia)). lia. }
  specialize (U nrow A). specialize (W nrow r Hr). lia.
Qed.

(* ---------- the script ---------- *)
Lemma flat_lt nt nf nd t f d : (t < nt)%nat -> (f < nf)%nat -> (d < nd)%nat -> ((t * nf + f) * nd + d < nt * nf * nd)%nat.
Proof.
  intros T F D. assert (E : (S (t * nf + f) <= nt * nf)%nat) by (assert (S t * nf <= nt * nf)%nat by (apply Nat.mul_le_mono_r; lia); lia).
  apply (Nat.mul_le_mono_r _ _ nd) in E. lia.
Qed.
Lemma sample_ok (L : list (mat RR)) nt nf nd : Forall square L -> krows L = (nt * nf * nd)%nat -> forall xi, exists s, sample L nt nf nd xi = Ok s /\
  forall t f d, (t < nt)%nat -> (f < nf)%nat -> (d < nd)%nat -> s t f d = mixed (nt * nf * nd) (fun k => kentry L ((t * nf + f) * nd + d) k) xi.
Proof.
  intros SQ KR xi. destruct (kron_matvec_dense RR_laws L {| x_n := nt * nf * nd; x_e := xi : nat -> RR |} SQ (eq_sym KR)) as (x & E & N & V).
  unfold sample. rewrite E. cbn [bind]. rewrite N, KR, Nat.eqb_refl. cbn [negb]. eexists. split; [reflexivity|]. intros t f d T F D. cbv beta.
  rewrite V by (rewrite KR; now apply flat_lt). unfold dense_dot. rewrite <- (sq_rc _ SQ), KR. reflexivity.
Qed.
Section Loop.
  Context (L : list (mat RR)) (nt nf nd : nat) (SQ : Forall square L) (KR : krows L = (nt * nf * nd)%nat) (noise : nat -> nat -> arr R).
  Definition ant_step (p : nat) (g : nat -> nat -> nat -> nat -> nat -> R) : res (nat -> nat -> nat -> nat -> nat -> R) :=
    do! samp0 <- sample L nt nf nd (noise p 0%nat);
    do! samp1 <- sample L nt nf nd (noise p 1%nat);
    Ok (fun t q f d c => if Nat.eqb q p then (if Nat.eqb c 0 then samp0 t f d else samp1 t f d) else g t q f d c).
  Lemma ant_loop n g0 : exists g, forM n ant_step g0 = Ok g /\ forall t p f d c, (t < nt)%nat -> (p < n)%nat -> (f < nf)%nat -> (d < nd)%nat -> (c < 2)%nat ->
    g t p f d c = mixed (nt * nf * nd) (fun k => kentry L ((t * nf + f) * nd + d) k) (noise p c).
  Proof.
    induction n as [|n (g & E & V)]; [exists g0; split; [reflexivity|lia]|]. cbn [forM]. rewrite E. cbn [bind]. unfold ant_step.
    destruct (sample_ok L nt nf nd SQ KR (noise n 0%nat)) as (s0 & -> & V0). destruct (sample_ok L nt nf nd SQ KR (noise n 1%nat)) as (s1 & -> & V1). cbn [bind].
    eexists. split; [reflexivity|]. intros t p f d c T P F D C. cbv beta. destruct (Nat.eqb_spec p n) as [->|N].
    - destruct c as [|[|c]]; [|cbn [Nat.eqb]|lia]; cbn [Nat.eqb]; auto.
    - apply V; auto. lia.
  Qed.
End Loop.

Lemma scaled_distance lo hi x y : lo < hi -> Rabs ((x - lo) / (hi - lo) - (y - lo) / (hi - lo)) = Rabs (x - y) / (hi - lo).
Proof.
  intros H. replace ((x - lo) / (hi - lo) - (y - lo) / (hi - lo)) with ((x - y) * / (hi - lo)) by (field; lra).
  rewrite Rabs_mult, (Rabs_right (/ (hi - lo))); [reflexivity|]. apply Rle_ge, Rlt_le, Rinv_0_lt_compat. lra.
Qed.
Lemma dist_swap (a b c d : R) : sqrt ((a - b) ^ 2 + (c - d) ^ 2) = sqrt ((b - a) ^ 2 + (d - c) ^ 2).
Proof. f_equal. ring. Qed.

Lemma lm_cols sources : exists lm, radec_to_lm (length sources) 2 (fun d i => match i with O => fst (nth d sources (0, 0)) | _ => snd (nth d sources (0, 0)) end) None = Ok lm /\
  forall d, (d < length sources)%nat -> lm d 0%nat = cos_l0 (source sources d) /\ lm d 1%nat = cos_m0 (source sources d).
Proof.
  set (rd := fun d i => _). destruct (radec_to_lm (length sources) 2 rd None) as [lm|x] eqn:E; [|discriminate E].
  exists lm. split; [reflexivity|]. intros d D. destruct (lm_rows (length sources) rd None d D) as (lm' & E' & A & B). rewrite E in E'.
  assert (lm = lm') as <- by congruence. cbn [phase_centre_of fst snd] in A, B. split; [exact A|exact B].
Qed.

Lemma phases_main chol nrow time ant1 ant2 nchan freq sources us t0 t1 f0 f1 nant :
  cholesky_routine chol -> handled nrow time nchan freq sources us t0 t1 f0 f1 -> number_of_antennas nrow ant1 ant2 nant ->
  let nt := length us in let nd := length sources in let N := (nt * nchan * nd)%nat in
  exists et ef ed (A : nat -> nat -> nat -> arr R), jitter et /\ jitter ef /\ jitter ed /\
    (forall t f d t' f' d', (t < nt)%nat -> (f < nchan)%nat -> (d < nd)%nat -> (t' < nt)%nat -> (f' < nchan)%nat -> (d' < nd)%nat ->
       mixed N (A t f d) (A t' f' d') =
         (axis_cov (1 / 4) (1 / 5) t0 t1 (IZR (nth t us 0%Z)) (IZR (nth t' us 0%Z)) + on_diagonal et t t') *
         (axis_cov 1 (1 / 4) f0 f1 (freq f) (freq f') + on_diagonal ef f f') *
         (sky_cov 1 (1 / 2) (source sources d) (source sources d') + on_diagonal ed d d')) /\
    forall noise, exists out, phase_only_gains chol nrow time ant1 ant2 nchan freq sources noise = Ok (nt, nant, nchan, nd, out) /\
      forall t p f d c, (t < nt)%nat -> (p < nant)%nat -> (f < nchan)%nat -> (d < nd)%nat -> (c < 2)%nat ->
        out t p f d c = cis (mixed N (A t f d) (noise p c)).
Proof.
  intros CH (DT & B0 & T1 & LT & FB & FT & LF & ND & NE) NA nt nd N.
  pose proof (us_bottom _ _ _ _ DT B0) as UB. pose proof (us_top _ _ _ _ DT T1) as UT.
  pose proof (is_bottom_pos _ _ _ B0) as PR. pose proof (is_bottom_pos _ _ _ UB) as PT. pose proof (is_bottom_pos _ _ _ FB) as PF.
  destruct (proj2 (normalise_spec _ _ _ _ UB UT) LT) as (tn & ETN & VTN). destruct (proj2 (normalise_spec _ _ _ _ FB FT) LF) as (fn & EFN & VFN).
  destruct (lm_cols sources) as (lm & ELM & VLM).
  destruct (cov_axis nt tn (1 / 4) (1 / 5) ltac:(lra)) as (Kt & EKt & Rt & Ct & Vt & Pt).
  destruct (cov_axis nchan fn 1 (1 / 4) ltac:(lra)) as (Kf & EKf & Rf & Cf & Vf & Pf).
  destruct (cov_plane nd lm 1 (1 / 2) ltac:(lra)) as (Kd & EKd & Rd & Cd & Vd & Pd).
  destruct (factor_step chol Kt CH) as (et & lt & Jt & Et & Ft); [congruence|rewrite Rt; exact PT| |rewrite Rt; exact Pt|].
  { intros i j. rewrite !Vt. apply gauss_sym, Rabs_minus_sym. }
  destruct (factor_step chol Kf CH) as (ef & lf & Jf & Ef & Ff); [congruence|rewrite Rf; exact PF| |rewrite Rf; exact Pf|].
  { intros i j. rewrite !Vf. apply gauss_sym, Rabs_minus_sym. }
  destruct (factor_step chol Kd CH) as (ed & ld & Jd & Ed & Fd); [congruence|rewrite Rd; subst nd; lia| |rewrite Rd; exact Pd|].
  { intros i j. rewrite !Vd. apply gauss_sym, dist_swap. }
  set (ls := [lt; lf; ld]). set (As := [plus_diag Kt et; plus_diag Kf ef; plus_diag Kd ed]).
  assert (SA : Forall square As).
  { repeat constructor; cbn [plus_diag m_r]; rewrite ?Rt, ?Rf, ?Rd; subst nd; lia. }
  destruct (gram_kron RR_laws ls As SA) as (KR & KC & GR); [constructor; [exact Ft|constructor; [exact Ff|constructor; [exact Fd|constructor]]]|].
  assert (KN : krows As = N). { unfold As. rewrite krows3. cbn [plus_diag m_r]. rewrite Rt, Rf, Rd. reflexivity. }
  assert (SL : Forall square ls).
  { destruct Ft as (Q1 & Q2 & _), Ff as (Q3 & Q4 & _), Fd as (Q5 & Q6 & _). cbn [plus_diag m_r] in *.
    repeat constructor; rewrite ?Q1, ?Q2, ?Q3, ?Q4, ?Q5, ?Q6, ?Rt, ?Rf, ?Rd; subst nd; lia. }
  exists et, ef, ed, (fun t f d k => kentry ls ((t * nchan + f) * nd + d) k). repeat split; try assumption.
  - intros t f d t' f' d' T F D T' F' D'. specialize (GR ((t * nchan + f) * nd + d)%nat ((t' * nchan + f') * nd + d')%nat). rewrite KN in GR.
    specialize (GR (flat_lt _ _ _ _ _ _ T F D) (flat_lt _ _ _ _ _ _ T' F' D')). unfold gram in GR. unfold mixed. etransitivity; [exact GR|].
    unfold As. rewrite (kentry3 _ _ _ nt nchan nd) by (cbn [plus_diag m_r m_c]; auto). cbn [plus_diag m_e]. rewrite Vt, Vf, Vd, !VTN, !VFN, !scaled_distance by assumption.
    destruct (VLM d D) as [-> ->]. destruct (VLM d' D') as [-> ->]. reflexivity.
  - intros noise. unfold phase_only_gains. destruct (Nat.eqb_spec nrow 0); [lia|]. destruct (unique_us _ _ _ DT) as (? & ? & ? & ->). rewrite (antennas_spec _ _ _ _ NA).
    destruct (Nat.eqb_spec nchan 0); [lia|]. destruct (Nat.ltb_spec (length sources) 2); [lia|]. rewrite ELM. cbn [bind].
    destruct (Nat.eqb_spec (length us) nchan) as [X|X]; destruct (Nat.eqb_spec nchan (length sources)) as [Y|Y]; try (elim NE; split; assumption); cbn [andb];
      rewrite ETN, EFN; fold nt nd; rewrite EKt, EKf, EKd; cbn [bind]; cbn [kron_cholesky]; fold tiny; rewrite Et, Ef, Ed; cbn [bind]; fold ls;
      (destruct (ant_loop ls nt nchan nd SL ltac:(rewrite KR; exact KN) noise nant (fun _ _ _ _ _ => 0)) as (g & EG & VG); unfold ant_step in EG; rewrite EG; cbn [bind];
       eexists; split; [reflexivity|]; intros t p f d c T P F D C; cbv beta; f_equal; apply VG; assumption).
Qed.
