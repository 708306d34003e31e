From Coq Require Import Reals Lra.
From Verif Require Import Prelude CRing CplxR FftFacts RestoreModel RestoreSpec RestoreProofs RestoreProofs2.
Open Scope R_scope.

(* ---- the beam ---- *)
Lemma form_ellipse s0 s1 pa x y : 0 < s0 -> 0 < s1 ->
  exp (- fwhm_conv * form s0 s1 pa x y) = ellipse fwhm_conv (Rmax s0 s1) (Rmin s0 s1) (90 + pa) x y.
Proof.
  intros P0 P1. unfold ellipse, form. f_equal. f_equal. cbv zeta. assert (0 < Rmax s0 s1) by (apply Rlt_le_trans with s0; [exact P0|apply Rmax_l]).
  assert (0 < Rmin s0 s1) by (apply Rmin_glb_lt; assumption). unfold Rsqr. field. split; lra.
Qed.
Lemma extent_radius s0 s1 x y : 0 < s0 -> in_extent s0 s1 x y = true <-> sqrt (x * x + y * y) <= 5 * Rmax s0 s1.
Proof.
  intros P. assert (0 < Rmax s0 s1) by (apply Rlt_le_trans with s0; [exact P|apply Rmax_l]). unfold in_extent.
  assert (Q : 0 <= x * x + y * y) by (pose proof (Rle_0_sqr x); pose proof (Rle_0_sqr y); unfold Rsqr in *; lra).
  destruct (Rle_dec _ _) as [L|L]; split; intros G; try discriminate; try reflexivity.
  - rewrite <- (sqrt_square (5 * Rmax s0 s1)) by lra. now apply sqrt_le_1_alt.
  - exfalso. apply L. rewrite <- (sqrt_sqrt _ Q). apply Rmult_le_compat; try apply sqrt_pos; exact G.
Qed.
Lemma beam_eq s0 s1 pa x y : 0 < s0 -> 0 < s1 ->
  (if in_extent s0 s1 x y then exp (- fwhm_conv * form s0 s1 pa x y) else 0) = clean_beam s0 s1 pa x y.
Proof.
  intros P0 P1. unfold clean_beam. pose proof (extent_radius s0 s1 x y P0) as E. destruct (Rle_dec _ _) as [L|L].
  - rewrite (proj2 E L). now apply form_ellipse.
  - destruct (in_extent s0 s1 x y); [|reflexivity]. exfalso. apply L. now apply E.
Qed.
(* tally *)
Fixpoint points (n1 n2 : nat) : list (nat * nat) := match n1 with O => [] | S n => points n n2 ++ map (fun j => (n, j)) (seq 0 n2) end.
Lemma points_in n1 n2 i j : In (i, j) (points n1 n2) <-> (i < n1)%nat /\ (j < n2)%nat.
Proof.
  induction n1 as [|n1 IH]; cbn [points]; [split; [contradiction|lia]|]. rewrite in_app_iff, IH, in_map_iff. split.
  - intros [H|[j' [E H]]]; [lia|]. injection E as -> ->. apply in_seq in H. lia.
  - intros [A B]. destruct (Nat.eq_dec i n1) as [->|N]; [right; exists j; split; [reflexivity|apply in_seq; lia]|left; lia].
Qed.
Lemma points_nodup n1 n2 : NoDup (points n1 n2).
Proof.
  induction n1 as [|n1 IH]; cbn [points]; [constructor|].
  assert (G : forall l : list (nat * nat), NoDup l -> (forall p, In p l -> (fst p < n1)%nat) -> forall s, NoDup s -> NoDup (l ++ map (fun j => (n1, j)) s)).
  { induction l as [|a l IHl]; intros ND F s S0; cbn [app].
    - induction S0; cbn; constructor; [rewrite in_map_iff; intros [y [E I]]; injection E as ->; contradiction|assumption].
    - inversion ND; subst. constructor; [|apply IHl; auto; intros p I; apply F; now right]. rewrite in_app_iff, in_map_iff. intros [I|[y [E I]]]; [contradiction|].
      specialize (F a (or_introl eq_refl)). rewrite <- E in F. cbn in F. lia. }
  apply G; [exact IH| |apply seq_NoDup]. intros [i j] I. apply points_in in I. cbn. lia.
Qed.
Lemma tally_length n1 n2 p : tally n1 n2 p = length (filter (fun q => p (fst q) (snd q)) (points n1 n2)).
Proof.
  unfold tally. assert (R : forall i n c, for_ n (fun j c => if p i j then S c else c) c = (c + length (filter (fun q => p (fst q) (snd q)) (map (fun j => (i, j)) (seq 0 n))))%nat).
  { intros i n c. induction n as [|n IH]; [cbn; lia|]. cbn [for_]. rewrite IH, seq_S, map_app, filter_app, app_length. cbn. destruct (p i n); cbn; lia. }
  induction n1 as [|n1 IH]; [reflexivity|]. cbn [for_]. rewrite IH, R. cbn [points]. rewrite filter_app, app_length. reflexivity.
Qed.
Lemma tally_lone n1 n2 p : tally n1 n2 p = 1%nat <-> lone n1 n2 p.
Proof.
  rewrite tally_length. assert (I : forall i j, In (i, j) (filter (fun q => p (fst q) (snd q)) (points n1 n2)) <-> ((i < n1)%nat /\ (j < n2)%nat) /\ p i j = true).
  { intros i j. rewrite filter_In, points_in. reflexivity. }
  assert (ND : NoDup (filter (fun q => p (fst q) (snd q)) (points n1 n2))) by apply NoDup_filter, points_nodup.
  set (l := filter _ _) in *. clearbody l. split.
  - destruct l as [|[i j] [|b l]]; try discriminate. intros _. exists i, j. destruct (proj1 (I i j) (or_introl eq_refl)) as [[A B] C]. repeat split; auto.
    + destruct (proj2 (I i' j') (conj (conj H H0) H1)) as [E|[]]. now injection E as -> ->.
    + destruct (proj2 (I i' j') (conj (conj H H0) H1)) as [E|[]]. now injection E as -> ->.
  - intros (i & j & A & B & C & U). destruct l as [|a [|b l]]; [destruct (proj2 (I i j)); auto|reflexivity|].
    exfalso. assert (EA : a = (i, j)). { destruct a as [x y]. destruct (proj1 (I x y) (or_introl eq_refl)) as [[P Q] S0]. destruct (U x y P Q S0). now subst. }
    assert (EB : b = (i, j)). { destruct b as [x y]. destruct (proj1 (I x y) (or_intror (or_introl eq_refl))) as [[P Q] S0]. destruct (U x y P Q S0). now subst. }
    subst. inversion ND as [|? ? N _]; subst. apply N. now left.
Qed.
Lemma gauss_value n1 n2 xin yin s0 s1 pa G : 0 < s0 -> 0 < s1 -> Gaussian2D n1 n2 xin yin s0 s1 pa = Ok G ->
  forall i j, G i j = clean_beam s0 s1 pa (xin i j) (yin i j).
Proof.
  intros P0 P1 H i j. unfold Gaussian2D in H. destruct (_ || _); [discriminate|]. injection H as <-. now apply beam_eq.
Qed.
Lemma gauss_raises n1 n2 xin yin s0 s1 pa e : 0 < s0 -> 0 < s1 ->
  Gaussian2D n1 n2 xin yin s0 s1 pa = Raise e <->
  e = IndexError /\ (n1 = 1%nat \/ n2 = 1%nat \/ lone n1 n2 (fun i j => if Rle_dec (sqrt (xin i j * xin i j + yin i j * yin i j)) (5 * Rmax s0 s1) then true else false)).
Proof.
  intros P0 P1. unfold Gaussian2D.
  assert (T : (tally n1 n2 (fun i j => in_extent s0 s1 (xin i j) (yin i j)) =? 1)%nat = true <->
     lone n1 n2 (fun i j => if Rle_dec (sqrt (xin i j * xin i j + yin i j * yin i j)) (5 * Rmax s0 s1) then true else false)).
  { rewrite Nat.eqb_eq, tally_lone. assert (E : forall i j, in_extent s0 s1 (xin i j) (yin i j) = true <-> (if Rle_dec (sqrt (xin i j * xin i j + yin i j * yin i j)) (5 * Rmax s0 s1) then true else false) = true).
    { intros i j. rewrite extent_radius by exact P0. destruct (Rle_dec _ _); split; intros; try assumption; try reflexivity; try discriminate; contradiction. }
    unfold lone. split; intros (i & j & A & B & C & U); exists i, j; (repeat split; [exact A|exact B|now apply E| |]); intros; apply E in H1; now destruct (U i' j' H H0 H1). }
  destruct (Nat.eqb_spec n1 1); [subst; cbn [orb]; split; [intros H; injection H as <-; tauto|intros [-> _]; reflexivity]|].
  destruct (Nat.eqb_spec n2 1); [subst; cbn [orb]; split; [intros H; injection H as <-; tauto|intros [-> _]; reflexivity]|].
  cbn [orb]. destruct (_ =? 1)%nat.
  - split; [intros H; injection H as <-; split; [reflexivity|right; right; now apply T]|intros [-> _]; reflexivity].
  - split; [discriminate|]. intros [_ [H|[H|H]]]; try contradiction. apply T in H. discriminate.
Qed.
Lemma narrow_beam n1 n2 i0 j0 dl dm s0 s1 pa : 0 < s0 -> 0 < s1 -> (i0 < n1)%nat -> (j0 < n2)%nat -> 5 * Rmax s0 s1 < Rabs dl -> 5 * Rmax s0 s1 < Rabs dm ->
  Gaussian2D n1 n2 (fun _ j => coord (INR j0 + 1) dl j) (fun i _ => coord (INR i0 + 1) dm i) s0 s1 pa = Raise IndexError.
Proof.
  intros P0 P1 I0 J0 L M. apply gauss_raises; [assumption|assumption|]. split; [reflexivity|]. right. right.
  assert (Z : forall k, coord (INR k + 1) dl k = 0 /\ coord (INR k + 1) dm k = 0) by (intros k; unfold coord; split; ring).
  assert (P : 0 < Rmax s0 s1) by (apply Rlt_le_trans with s0; [exact P0|apply Rmax_l]).
  assert (STEP : forall a b d, 5 * Rmax s0 s1 < Rabs d -> a <> b -> 5 * Rmax s0 s1 < Rabs (coord (INR a + 1) d b)).
  { intros a b d D N. unfold coord. rewrite Rabs_mult. assert (1 <= Rabs (INR b + 1 - (INR a + 1))).
    { replace (INR b + 1 - (INR a + 1)) with (IZR (Z.of_nat b - Z.of_nat a)) by (rewrite minus_IZR, <- !INR_IZR_INZ; ring). rewrite <- abs_IZR. apply IZR_le. lia. }
    pose proof (Rabs_pos d). nra. }
  assert (N : forall x y, 5 * Rmax s0 s1 < Rabs x \/ 5 * Rmax s0 s1 < Rabs y -> ~ sqrt (x * x + y * y) <= 5 * Rmax s0 s1).
  { intros x y H Q. assert (Rabs x <= sqrt (x * x + y * y) /\ Rabs y <= sqrt (x * x + y * y)) as [A B].
    { split; (rewrite <- sqrt_Rsqr_abs; apply sqrt_le_1_alt; pose proof (Rle_0_sqr x); pose proof (Rle_0_sqr y); unfold Rsqr in *; lra). }
    lra. }
  exists i0, j0. split; [exact I0|split; [exact J0|split]].
  - rewrite (proj1 (Z j0)), (proj2 (Z i0)). rewrite !Rmult_0_l, Rplus_0_l, sqrt_0. destruct (Rle_dec 0 _); [reflexivity|lra].
  - intros i j I J. destruct (Rle_dec _ _) as [Q|Q]; [|discriminate]. intros _. split.
    + destruct (Nat.eq_dec i i0) as [E|E]; [exact E|]. exfalso. eapply N; [right|exact Q]. apply STEP; [exact M|congruence].
    + destruct (Nat.eq_dec j j0) as [E|E]; [exact E|]. exfalso. eapply N; [left|exact Q]. apply STEP; [exact L|congruence].
Qed.
Lemma beam_zero s0 s1 pa x y : 5 * Rmax s0 s1 < Rabs x \/ 5 * Rmax s0 s1 < Rabs y -> clean_beam s0 s1 pa x y = 0.
Proof.
  intros H. unfold clean_beam. destruct (Rle_dec _ _) as [Q|Q]; [|reflexivity]. exfalso.
  assert (Rabs x <= sqrt (x * x + y * y) /\ Rabs y <= sqrt (x * x + y * y)) as [A B].
  { split; (rewrite <- sqrt_Rsqr_abs; apply sqrt_le_1_alt; pose proof (Rle_0_sqr x); pose proof (Rle_0_sqr y); unfold Rsqr in *; lra). }
  lra.
Qed.

(* ---- the restored model ---- *)
Lemma restored_main pocket fast frac n1 n2 M G b k1 k2 ref_l dl ref_m dm s0 s1 pa :
  fast_ok fast -> 0 < s0 -> 0 < s1 -> dl <> 0 -> dm <> 0 -> (k1 < n1)%nat -> (k2 < n2)%nat ->
  pocket = true \/ Nat.even (padded fast frac n2) = true ->
  fits_axis (5 * Rmax s0 s1) (padded fast frac n1) n1 (centre fast frac n1) ref_m dm ->
  fits_axis (5 * Rmax s0 s1) (padded fast frac n2) n2 (centre fast frac n2) ref_l dl ->
  Gaussian2D n1 n2 (fun _ j => coord ref_l dl j) (fun i _ => coord ref_m dm i) s0 s1 pa = Ok G ->
  cu_at (convolve_model pocket fast frac n1 n2 M G) b k1 k2 =
  restored n1 n2 (fun d1 d2 => clean_beam s0 s1 pa (d2 * dl) (d1 * dm)) (INR (centre fast frac n1) - (ref_m - 1)) (INR (centre fast frac n2) - (ref_l - 1)) (M b) k1 k2.
Proof.
  intros F P0 P1 DL DM K1 K2 LC (A1 & A2 & A3) (B1 & B2 & B3) E. rewrite convolve_at by (assumption || lia).
  assert (QL : 0 < Rabs dl) by now apply Rabs_pos_lt. assert (QM : 0 < Rabs dm) by now apply Rabs_pos_lt.
  assert (DIV : forall x y d, 0 < d -> x <= y * d -> x / d <= y). { intros x y d D H. apply (Rmult_le_reg_r d); [exact D|]. unfold Rdiv. rewrite Rmult_assoc, Rinv_l by lra. lra. }
  assert (DIV2 : forall x z y d, 0 < d -> x + z * d < y * d -> x / d + z < y). { intros x z y d D H. apply (Rmult_lt_reg_r d); [exact D|]. unfold Rdiv. rewrite Rmult_plus_distr_r, Rmult_assoc, Rinv_l by lra. lra. }
  apply (circular_restored _ _ _ _ n1 n2 (M b) G _ (ref_m - 1) (ref_l - 1) (5 * Rmax s0 s1 / Rabs dm) (5 * Rmax s0 s1 / Rabs dl)); try assumption; try apply padded_ge.
  - now apply DIV.
  - enough (5 * Rmax s0 s1 / Rabs dm <= INR n1 - ref_m) by lra. now apply DIV.
  - now apply DIV2.
  - now apply DIV.
  - enough (5 * Rmax s0 s1 / Rabs dl <= INR n2 - ref_l) by lra. now apply DIV.
  - now apply DIV2.
  - assert (U : forall d x, 0 < Rabs d -> 5 * Rmax s0 s1 / Rabs d < Rabs x -> 5 * Rmax s0 s1 < Rabs (x * d)).
    { intros d x D H. rewrite Rabs_mult. apply (Rmult_lt_compat_r (Rabs d)) in H; [|exact D]. unfold Rdiv in H. rewrite Rmult_assoc, Rinv_l in H by lra. lra. }
    intros d1 d2 [H|H]; apply beam_zero; [right|left]; now apply U.
  - intros j1 j2 J1 J2. rewrite (gauss_value _ _ _ _ _ _ _ _ P0 P1 E). unfold coord. f_equal; ring.
Qed.
Lemma restored_point n1 n2 beam o1 o2 flux p1 p2 k1 k2 : (p1 < n1)%nat -> (p2 < n2)%nat ->
  restored n1 n2 beam o1 o2 (point_source flux p1 p2) k1 k2 = flux * beam (INR k1 - INR p1 + o1) (INR k2 - INR p2 + o2).
Proof.
  intros P1 P2. unfold restored, point_source.
  etransitivity; [apply (csum_only RR_laws n1 p1); [exact P1|]|].
  - intros i I N. apply rsum_zero. intros j J. destruct (Nat.eqb_spec i p1); [contradiction|]. cbn. apply Rmult_0_l.
  - cbv beta. etransitivity; [apply (csum_only RR_laws n2 p2); [exact P2|]|].
    + intros j J N. rewrite Nat.eqb_refl. destruct (Nat.eqb_spec j p2); [contradiction|]. cbn. apply Rmult_0_l.
    + cbv beta. now rewrite !Nat.eqb_refl.
Qed.
Lemma fwhm_pos : 0 < fwhm_conv.
Proof. unfold fwhm_conv. assert (0 < ln 2) by (rewrite <- ln_1; apply ln_increasing; lra). assert (0 < sqrt (2 * ln 2)) by (apply sqrt_lt_R0; lra). lra. Qed.
Lemma beam_centre s0 s1 pa : 0 < s0 -> clean_beam s0 s1 pa 0 0 = 1.
Proof.
  intros P. assert (0 < Rmax s0 s1) by (apply Rlt_le_trans with s0; [exact P|apply Rmax_l]). unfold clean_beam.
  rewrite !Rmult_0_l, Rplus_0_l, sqrt_0. destruct (Rle_dec 0 _); [|lra]. unfold ellipse. rewrite <- exp_0. f_equal. unfold Rsqr, Rdiv. ring.
Qed.
Lemma beam_below s0 s1 pa x y : 0 < s0 -> 0 < s1 -> x <> 0 \/ y <> 0 -> 0 <= clean_beam s0 s1 pa x y < 1.
Proof.
  intros P0 P1 N. unfold clean_beam. destruct (Rle_dec _ _); [|lra]. unfold ellipse. split; [left; apply exp_pos|].
  rewrite <- exp_0. apply exp_increasing. pose proof fwhm_pos.
  assert (M : 0 < Rmax s0 s1) by (apply Rlt_le_trans with s0; [exact P0|apply Rmax_l]). assert (m : 0 < Rmin s0 s1) by (apply Rmin_glb_lt; assumption).
  set (t := 90 + pa). set (u := x * cos t - y * sin t). set (v := x * sin t + y * cos t).
  assert (UV : u * u + v * v = x * x + y * y). { unfold u, v. pose proof (sin2_cos2 t) as T. unfold Rsqr in T.
    transitivity ((x * x + y * y) * (sin t * sin t + cos t * cos t)); [ring|]. rewrite T. ring. }
  assert (XY : 0 < x * x + y * y). { pose proof (Rle_0_sqr x). pose proof (Rle_0_sqr y). unfold Rsqr in *. destruct N as [N|N]; [pose proof (Rsqr_pos_lt x N)|pose proof (Rsqr_pos_lt y N)]; unfold Rsqr in *; lra. }
  assert (0 < Rsqr (u / Rmax s0 s1) + Rsqr (v / Rmin s0 s1)); [|nra].
  pose proof (Rle_0_sqr (u / Rmax s0 s1)). pose proof (Rle_0_sqr (v / Rmin s0 s1)).
  destruct (Req_dec u 0) as [U|U].
  - assert (V : v <> 0) by (intros V; rewrite U, V in UV; lra). assert (0 < Rsqr (v / Rmin s0 s1)); [|lra]. apply Rsqr_pos_lt. unfold Rdiv. apply Rmult_integral_contrapositive_currified; [exact V|]. apply Rinv_neq_0_compat. lra.
  - assert (0 < Rsqr (u / Rmax s0 s1)); [|lra]. apply Rsqr_pos_lt. unfold Rdiv. apply Rmult_integral_contrapositive_currified; [exact U|]. apply Rinv_neq_0_compat. lra.
Qed.
Lemma beam_point_symmetric s0 s1 pa x y : clean_beam s0 s1 pa (- x) (- y) = clean_beam s0 s1 pa x y.
Proof.
  unfold clean_beam. replace (- x * - x + - y * - y) with (x * x + y * y) by ring. destruct (Rle_dec _ _); [|reflexivity]. unfold ellipse. f_equal. f_equal. unfold Rsqr, Rdiv. ring.
Qed.
Lemma beam_half_turn s0 s1 pa x y : clean_beam s0 s1 (pa + PI) x y = clean_beam s0 s1 pa x y.
Proof.
  unfold clean_beam. destruct (Rle_dec _ _); [|reflexivity]. unfold ellipse. f_equal. f_equal.
  replace (90 + (pa + PI)) with ((90 + pa) + PI) by ring. rewrite neg_cos, neg_sin. unfold Rsqr, Rdiv. ring.
Qed.
Lemma ln2_half : / 2 < ln 2.
Proof.
  rewrite <- (ln_exp (/ 2)). apply ln_increasing; [apply exp_pos|]. pose proof exp_le_3 as E. pose proof (exp_pos (/ 2)) as P.
  assert (Q : exp (/ 2) * exp (/ 2) <= 3) by (rewrite <- exp_plus; replace (/ 2 + / 2) with 1 by lra; exact E). nra.
Qed.
Lemma beam_too_wide s pa x y : 0 < s -> sqrt (x * x + y * y) = s / 2 -> / 2 < clean_beam s s pa x y.
Proof.
  intros P D. unfold clean_beam. rewrite Rmax_left, Rmin_left by lra. rewrite D. destruct (Rle_dec (s / 2) (5 * s)); [|lra]. unfold ellipse.
  assert (XY : x * x + y * y = s / 2 * (s / 2)). { rewrite <- D. symmetry. apply sqrt_sqrt. pose proof (Rle_0_sqr x). pose proof (Rle_0_sqr y). unfold Rsqr in *; lra. }
  replace (Rsqr ((x * cos (90 + pa) - y * sin (90 + pa)) / s) + Rsqr ((x * sin (90 + pa) + y * cos (90 + pa)) / s)) with (/ 4).
  2:{ unfold Rsqr. pose proof (sin2_cos2 (90 + pa)) as T. unfold Rsqr in T.
      transitivity ((x * x + y * y) * (sin (90 + pa) * sin (90 + pa) + cos (90 + pa) * cos (90 + pa)) / (s * s)); [rewrite T, XY; field; lra|field; lra]. }
  rewrite <- (exp_ln (/ 2)) by lra. apply exp_increasing. rewrite ln_Rinv by lra. unfold fwhm_conv. pose proof ln2_half as L.
  assert (S0 : sqrt (2 * ln 2) < 2 * ln 2). { rewrite <- (sqrt_square (2 * ln 2)) at 2 by lra. apply sqrt_lt_1_alt. nra. }
  lra.
Qed.
