(* C101: predicting the visibilities of a FITS image (dft/examples/predict_from_fits.py). *)
From Coq Require Import Reals String Lra Lia.
From Verif Require Import Prelude CRing CplxR RimeModel RimeSpec DftModel FitsPredictModel FitsPredictSpec FitsPredictProofs.
Open Scope nat_scope.

(* the frequencies of the measurement set are those of the image, the columns of the image ascend in l, and the frequencies are passed on
   as a vector: the visibilities are the sum over all pixels, for any chunks of rows; unpolarised *)
Theorem C101_visibilities : forall ok h data nchan ms fr freq rows uvw ncorr, in_degrees h -> bands h nchan fr -> 1 <= nchan -> 1 <= naxis1 h -> (0 <= cdelt1 h)%R ->
  (forall f, f < nchan -> ms f = fr f) -> not_alone h nchan (pixel h data) -> ncorr = 1 \/ ncorr = 2 \/ ncorr = 4 ->
  exists V, predict_fits ok h data nchan ms (Some [nchan]) freq rows uvw ncorr = Ok V /\
    forall r f c, r < list_sum rows -> f < nchan -> c < ncorr -> V r f c = unpolarised ncorr (image_vis h (pixel h data) (column_l h) uvw freq r f) c.
Proof.
  intros ok h data nchan ms fr freq rows uvw ncorr U B Hc H1 P S N Hn. destruct (cube_same ok h data nchan ms fr B S) as (cube & E & Px).
  destruct (predict_value ok h data nchan ms freq rows uvw ncorr cube U H1 Hc Hn E) as (V & EV & HV).
  { apply (alone_ext h nchan (pixel h data)); [intros; symmetry; apply Px | exact N]. }
  exists V. split; [exact EV |]. intros r f c Hr Hf Hcc. rewrite HV by assumption. f_equal. apply vis_ext; [intros; apply Px | intros; apply l_up; assumption].
Qed.
(* columns that descend in l, as usual in astronomy: the image is mirrored *)
Theorem C101_mirrored : forall ok h data nchan ms fr freq rows uvw ncorr, in_degrees h -> bands h nchan fr -> 1 <= nchan -> 1 <= naxis1 h -> (cdelt1 h < 0)%R ->
  (forall f, f < nchan -> ms f = fr f) -> not_alone h nchan (pixel h data) -> ncorr = 1 \/ ncorr = 2 \/ ncorr = 4 ->
  exists V, predict_fits ok h data nchan ms (Some [nchan]) freq rows uvw ncorr = Ok V /\
    forall r f c, r < list_sum rows -> f < nchan -> c < ncorr ->
      V r f c = unpolarised ncorr (image_vis h (fun k i j => pixel h data k i (naxis1 h - 1 - j)) (column_l h) uvw freq r f) c.
Proof.
  intros ok h data nchan ms fr freq rows uvw ncorr U B Hc H1 P S N Hn. destruct (cube_same ok h data nchan ms fr B S) as (cube & E & Px).
  destruct (predict_value ok h data nchan ms freq rows uvw ncorr cube U H1 Hc Hn E) as (V & EV & HV).
  { apply (alone_ext h nchan (pixel h data)); [intros; symmetry; apply Px | exact N]. }
  exists V. split; [exact EV |]. intros r f c Hr Hf Hcc. rewrite HV by assumption. f_equal. unfold image_vis. apply csum_ext. intros i Hi.
  rewrite <- csum_rev. apply csum_ext. intros j Hj. rewrite Px. unfold l_of. rewrite l_down by (assumption || lia).
  replace (naxis1 h - 1 - (naxis1 h - 1 - j)) with j by lia. reflexivity.
Qed.
(* other frequencies than those of the image: square images whose rows ascend are interpolated in frequency *)
Theorem C101_interpolated : forall ok h data nchan ms nband fr freq rows uvw ncorr, in_degrees h -> bands h nband fr -> 2 <= nband -> (fr 0%nat < fr 1%nat)%R ->
  1 <= nchan -> naxis1 h = naxis2 h -> 2 <= naxis1 h -> (0 < cdelt1 h)%R -> (0 < cdelt2 h)%R ->
  (nchan = nband -> exists f, f < nchan /\ ms f <> fr f) ->
  (forall B, (forall f i j, f < nchan -> interpolates nband fr (fun k => pixel h data k i j) (ms f) (B f i j)) -> not_alone h nchan B) -> ncorr = 1 \/ ncorr = 2 \/ ncorr = 4 ->
  exists V B, predict_fits ok h data nchan ms (Some [nchan]) freq rows uvw ncorr = Ok V /\
    (forall f i j, f < nchan -> interpolates nband fr (fun k => pixel h data k i j) (ms f) (B f i j)) /\
    forall r f c, r < list_sum rows -> f < nchan -> c < ncorr -> V r f c = unpolarised ncorr (image_vis h B (column_l h) uvw freq r f) c.
Proof.
  intros ok h data nchan ms nband fr freq rows uvw ncorr U B Hb Hf Hc Sq H1 P1 P2 D N Hn.
  destruct (cube_interp ok h data nchan ms nband fr B Hb Sq H1 ltac:(lra) P2 Hf) as (cube & E & I).
  { unfold differ. destruct (Nat.eqb_spec nchan nband) as [->|Ne].
    - destruct (D eq_refl) as (f & L & X). apply existsb_exists. exists f. split; [apply in_seq; lia | apply neq_spec; exact X].
    - destruct (Nat.eqb_spec nchan 1) as [->|].
      + apply existsb_exists. destruct (Req_EM_T (ms 0) (fr 0)) as [Z|Z].
        * exists 1. split; [apply in_seq; lia |]. apply neq_spec. rewrite Z. lra.
        * exists 0. split; [apply in_seq; lia |]. apply neq_spec. exact Z.
      + destruct (Nat.eqb_spec nband 1); [lia | reflexivity]. }
  destruct (predict_value ok h data nchan ms freq rows uvw ncorr cube U ltac:(lia) Hc Hn E) as (V & EV & HV); [apply N; intros; apply I |].
  exists V, (brightness_of h cube). split; [exact EV |]. split; [intros; apply I |]. intros r f c Hr Hf' Hcc. rewrite HV by assumption. f_equal.
  apply vis_ext; [reflexivity | intros; apply l_up; [lra | assumption]].
Qed.
(* the script itself takes the frequencies from a table with rows and passes on the table: it never succeeds *)
Theorem C101_script_refuted : forall ok h data nchan f rows uvw ncorr, script ok h data (Table nchan f) rows uvw ncorr = Raise ValueError.
Proof.
  intros. unfold script. destruct (predict_fits ok h data nchan (f 0) None (fun _ => 0%R) rows uvw ncorr) as [V|e] eqn:E.
  - apply predict_ok in E. destruct E as (E & _). discriminate.
  - f_equal. exact (predict_err _ _ _ _ _ _ _ _ _ _ _ E).
Qed.
(* were there no rows, only one channel would do *)
Theorem C101_script_channels_refuted : forall ok h data chunks f rows uvw ncorr, chunks <> [1] -> script ok h data (Flat chunks f) rows uvw ncorr = Raise ValueError.
Proof.
  intros ok h data chunks f rows uvw ncorr N. unfold script. destruct (predict_fits _ _ _ _ _ _ _ _ _ _) as [V|e] eqn:E.
  - apply predict_ok in E. destruct E as (E & _). congruence.
  - f_equal. exact (predict_err _ _ _ _ _ _ _ _ _ _ _ E).
Qed.
(* what is refused *)
Theorem C101_refused : forall ok h data nchan ms fc freq rows uvw ncorr,
  ~ in_degrees h \/ (ctype3 h <> "FREQ" /\ ctype4 h <> "FREQ")%string \/ (2 <= naxis3 h /\ 2 <= naxis4 h) \/ (ncorr <> 1 /\ ncorr <> 2 /\ ncorr <> 4) ->
  predict_fits ok h data nchan ms fc freq rows uvw ncorr = Raise ValueError.
Proof.
  intros ok h data nchan ms fc freq rows uvw ncorr C. destruct (predict_fits ok h data nchan ms fc freq rows uvw ncorr) as [V|e] eqn:E.
  - exfalso. apply predict_ok in E. destruct E as (_ & Hn & U & cube & M & _). destruct (cube_ok _ _ _ _ _ _ M) as (nb & fr & nc & F & L & _).
    destruct C as [C|[(C3 & C4)|[(C3 & C4)|C]]]; [contradiction | | | lia].
    + apply String.eqb_neq in C3, C4. unfold freq_axis in F. rewrite C3, C4 in F. discriminate.
    + unfold freq_axis in F. destruct (String.eqb (ctype4 h) "FREQ"); [|destruct (String.eqb (ctype3 h) "FREQ"); [|discriminate]]; injection F as _ _ <-; lia.
  - f_equal. exact (predict_err _ _ _ _ _ _ _ _ _ _ _ E).
Qed.
(* an image with exactly one pixel that is not zero *)
Theorem C101_one_pixel_refuted : forall ok h data nchan ms fr fc freq rows uvw ncorr i0 j0, bands h nchan fr -> (forall f, f < nchan -> ms f = fr f) ->
  lit h nchan (pixel h data) i0 j0 -> (forall i j, lit h nchan (pixel h data) i j -> (i, j) = (i0, j0)) ->
  predict_fits ok h data nchan ms fc freq rows uvw ncorr = Raise ValueError.
Proof.
  intros ok h data nchan ms fr fc freq rows uvw ncorr i0 j0 B S (Hi & Hj & f0 & Hf & Nz) O. destruct (predict_fits ok h data nchan ms fc freq rows uvw ncorr) as [V|e] eqn:E.
  - exfalso. apply predict_ok in E. destruct E as (_ & _ & _ & cube & M & L). destruct (cube_same ok h data nchan ms fr B S) as (cube' & M' & Px). rewrite M in M'. injection M' as <-.
    pose proof (nonzero_in nchan (naxis1 h * naxis2 h) cube) as I. pose proof (nonzero_nodup nchan (naxis1 h * naxis2 h) cube) as Nd.
    assert (P : forall p, In p (nonzero nchan (naxis1 h * naxis2 h) cube) -> p = i0 * naxis1 h + j0).
    { intros p Hp. apply I in Hp. destruct Hp as (Lp & f & Hf' & Np). pose proof (Nat.div_mod p (naxis1 h) ltac:(lia)) as Ep.
      assert (Q : (p / naxis1 h, p mod naxis1 h) = (i0, j0)).
      { apply O. split; [apply Nat.div_lt_upper_bound; lia |]. split; [apply Nat.mod_upper_bound; lia |]. exists f. split; [exact Hf' |]. rewrite <- Px. unfold brightness_of.
        replace (p / naxis1 h * naxis1 h + p mod naxis1 h) with p by lia. exact Np. }
      injection Q as Q1 Q2. rewrite Q1, Q2 in Ep. lia. }
    assert (P0 : In (i0 * naxis1 h + j0) (nonzero nchan (naxis1 h * naxis2 h) cube)).
    { apply I. split; [nia |]. exists f0. split; [exact Hf |]. change (brightness_of h cube f0 i0 j0 <> 0%R). rewrite Px. exact Nz. }
    destruct (nonzero nchan (naxis1 h * naxis2 h) cube) as [|p [|q l]]; [destruct P0 | apply L; reflexivity |].
    pose proof (P p (or_introl eq_refl)). pose proof (P q (or_intror (or_introl eq_refl))). inversion Nd as [|? ? X _]; subst. apply X. left. congruence.
  - f_equal. exact (predict_err _ _ _ _ _ _ _ _ _ _ _ E).
Qed.
(* other frequencies than those of the image: one band and images that are not square are refused *)
Theorem C101_interpolation_refused : forall ok h data nchan ms nband fr fc freq rows uvw ncorr, bands h nband fr -> (nchan = nband -> exists f, f < nchan /\ ms f <> fr f) ->
  nchan <> 1 -> 2 <= nband -> 1 <= naxis2 h -> naxis1 h <> naxis2 h \/ naxis1 h = 1 \/ (ok = false /\ (cdelt2 h <= 0)%R) ->
  predict_fits ok h data nchan ms fc freq rows uvw ncorr = Raise ValueError.
Proof.
  intros ok h data nchan ms nband fr fc freq rows uvw ncorr B D N1 Nb N2 C. destruct (predict_fits ok h data nchan ms fc freq rows uvw ncorr) as [V|e] eqn:E.
  - exfalso. apply predict_ok in E. destruct E as (_ & _ & _ & cube & M & _). destruct (cube_ok _ _ _ _ _ _ M) as (nb & g & nc & F & L & X).
    destruct (bands_axis h nband fr B) as (g' & F' & G). rewrite F in F'. injection F' as -> -> ->.
    destruct X as (X1 & X2 & X3 & X4).
    { unfold differ. destruct (Nat.eqb_spec nchan nband) as [->|Ne].
      - destruct (D eq_refl) as (f & Lf & X). apply existsb_exists. exists f. split; [apply in_seq; lia | apply neq_spec; rewrite G; exact X].
      - destruct (Nat.eqb_spec nchan 1); [contradiction |]. destruct (Nat.eqb_spec nband 1); [lia | reflexivity]. }
    destruct C as [C|[C|(C & C2)]]; [contradiction | contradiction |]. rewrite C in X4. unfold grid_ok in X4. cbn [andb] in X4. rewrite orb_false_r in X4.
    assert (2 <= naxis2 h) by lia. unfold sorted_by in X4. rewrite forallb_forall in X4. specialize (X4 0 ltac:(apply in_seq; lia)). apply rlt_spec in X4.
    rewrite !m_at in X4 by lia. unfold row_m in X4. cbn [INR] in X4. pose proof PI_RGT_0. nra.
  - f_equal. exact (predict_err _ _ _ _ _ _ _ _ _ _ _ E).
Qed.

(* non-vacuity: three columns, two rows, two bands on axis 4; then a square image with other frequencies *)
Definition ex_h (n1 n2 : nat) (d1 : R) : fits_header := {| cunit1 := "deg"; cunit2 := "DEG"; ctype3 := "STOKES"; ctype4 := "FREQ"; naxis1 := n1; naxis2 := n2; naxis3 := 1; naxis4 := 2;
  crpix1 := 1; crpix2 := 1; crpix3 := 1; crpix4 := 1; cdelt1 := d1; cdelt2 := 1; cdelt3 := 1; cdelt4 := 1000; crval3 := 1; crval4 := 5000 |}.
Definition ex_data : arr R := fun p => INR (S p).
Lemma ex_alone d1 n1 n2 : 1 <= n2 -> 2 <= n1 -> not_alone (ex_h n1 n2 d1) 2 (pixel (ex_h n1 n2 d1) ex_data).
Proof.
  intros H2 H1 i j (Hi & Hj & _). cbn [naxis1 naxis2 ex_h] in *.
  assert (L : forall i j, i < n2 -> j < n1 -> lit (ex_h n1 n2 d1) 2 (pixel (ex_h n1 n2 d1) ex_data) i j).
  { intros a b Ha Hb. split; [exact Ha |]. split; [exact Hb |]. exists 0. split; [lia |]. unfold pixel, ex_data. apply not_0_INR. lia. }
  exists i, (if Nat.eqb j 0 then 1 else 0). destruct (Nat.eqb_spec j 0); (split; [apply L; lia | congruence]).
Qed.
Example C101_ex : let h := ex_h 3 2 1 in in_degrees h /\ bands h 2 (fun k => 5000 + (INR k + 1 - 1) * 1000)%R /\ (0 <= cdelt1 h)%R /\ not_alone h 2 (pixel h ex_data).
Proof. split; [split; auto |]. split; [apply (bands4 (ex_h 3 2 1)); reflexivity |]. split; [cbn; lra |]. apply ex_alone; lia. Qed.
(* descending columns: with the phase of the second column at one half turn, the sum of 1 and -2 is not that of 2 and -1 *)
Theorem C101_columns_refuted : ~ (forall ok h data nchan ms fr freq rows uvw ncorr V, in_degrees h -> bands h nchan fr -> (forall f, f < nchan -> ms f = fr f) ->
  predict_fits ok h data nchan ms (Some [nchan]) freq rows uvw ncorr = Ok V ->
  forall r f c, r < list_sum rows -> f < nchan -> c < ncorr -> V r f c = unpolarised ncorr (image_vis h (pixel h data) (column_l h) uvw freq r f) c).
Proof.
  intros H. set (h := ex_h 2 1 (-1)). set (fr := fun k => (5000 + (INR k + 1 - 1) * 1000)%R).
  set (uvw := fun (r d : nat) => match d with O => (light / (2 * (1 * (-1) * (PI / 180))))%R | _ => 0%R end).
  assert (U : in_degrees h) by (split; [right; reflexivity | left; reflexivity]).
  assert (B : bands h 2 fr) by (apply (bands4 h); reflexivity).
  destruct (C101_mirrored true h ex_data 2 fr fr (fun _ => 1%R) [1] uvw 1 U B ltac:(lia) ltac:(cbn; lia) ltac:(cbn; lra) ltac:(reflexivity) ltac:(apply ex_alone; lia) ltac:(auto)) as (V & E & HV).
  specialize (H true h ex_data 2 fr fr (fun _ => 1%R) [1] uvw 1 V U B ltac:(reflexivity) E 0 0 0 ltac:(cbn; lia) ltac:(lia) ltac:(lia)).
  rewrite HV in H by (cbn; lia). unfold unpolarised in H. apply (f_equal fst) in H.
  assert (D0 : forall m, delay (column_l h 0) (row_m h m) (uvw 0 0) (uvw 0 1) (uvw 0 2) 1 = 0%R).
  { intros m. unfold delay, column_l, uvw. cbn [INR crpix1 cdelt1 h ex_h]. ring. }
  assert (D1 : forall m, delay (column_l h 1) (row_m h m) (uvw 0 0) (uvw 0 1) (uvw 0 2) 1 = PI).
  { intros m. unfold delay, column_l, uvw, light. cbn [INR crpix1 cdelt1 h ex_h]. pose proof PI_RGT_0. field. lra. }
  unfold image_vis in H. cbn [naxis1 naxis2 h ex_h csum] in H. fold h in H. rewrite D0, D1 in H. unfold cis, ofR in H. rewrite Ropp_0, cos_neg, cos_0, cos_PI in H.
  unfold pixel, ex_data in H. cbn in H. lra.
Qed.
Example C101_ex_interpolated : let h := ex_h 2 2 1 in bands h 2 (fun k => 5000 + (INR k + 1 - 1) * 1000)%R /\
  forall B, (forall f i j, f < 1 -> interpolates 2 (fun k => 5000 + (INR k + 1 - 1) * 1000)%R (fun k => pixel h ex_data k i j) 5500%R (B f i j)) -> not_alone h 1 B.
Proof.
  split; [apply (bands4 (ex_h 2 2 1)); reflexivity |]. intros B I i j (Hi & Hj & _). cbn [naxis1 naxis2 ex_h] in *.
  assert (L : forall i j, i < 2 -> j < 2 -> lit (ex_h 2 2 1) 1 B i j).
  { intros a b Ha Hb. split; [exact Ha |]. split; [exact Hb |]. exists 0. split; [lia |]. rewrite (I 0 a b ltac:(lia) 0 ltac:(lia) (or_introl eq_refl) (or_introl eq_refl)).
    unfold pixel, ex_data. cbn [naxis1 naxis2 ex_h]. pose proof (pos_INR ((0 * 2 + a) * 2 + b)). pose proof (pos_INR ((1 * 2 + a) * 2 + b)). rewrite !S_INR. change (INR 0) with 0%R. lra. }
  exists i, (if Nat.eqb j 0 then 1 else 0). destruct (Nat.eqb_spec j 0); (split; [apply L; lia | congruence]).
Qed.
Example C101_ex_one : let h := ex_h 2 2 1 in let data := fun p => if Nat.eqb p 3 then 1%R else 0%R in
  lit h 2 (pixel h data) 1 1 /\ forall i j, lit h 2 (pixel h data) i j -> (i, j) = (1, 1).
Proof.
  split.
  - split; [cbn; lia |]. split; [cbn; lia |]. exists 0. split; [lia |]. cbn. lra.
  - intros i j (Hi & Hj & f & Hf & N). cbn [naxis1 naxis2 ex_h] in Hi, Hj. unfold pixel in N. cbn [naxis1 naxis2 ex_h] in N.
    destruct (Nat.eqb_spec ((f * 2 + i) * 2 + j) 3) as [E|]; [|congruence]. destruct f as [|[|]]; [|lia|lia]. f_equal; lia.
Qed.

Print Assumptions C101_visibilities.
Print Assumptions C101_mirrored.
Print Assumptions C101_interpolated.
Print Assumptions C101_script_refuted.
Print Assumptions C101_script_channels_refuted.
Print Assumptions C101_refused.
Print Assumptions C101_one_pixel_refuted.
Print Assumptions C101_interpolation_refused.
Print Assumptions C101_columns_refuted.
