From Coq Require Import Reals Lra.
From Coq Require Import String Ascii.
From Verif Require Import Prelude CRing CplxR DaskPredictModel ApplyGainsModel ApplyGainsProofs SpiModel SpiSpec SpiProofs SpiProps FftFacts RestoreModel RestoreSpec RestoreProofs RestoreProofs2 FitterModel FitterSpec FitterProofs FitterProofs2 FitterProofs3.
Open Scope list_scope.
Open Scope R_scope.

(* ---- a sky of power laws ---- *)
Lemma swap3 (a b c : R) : a * c * b = a * b * c. Proof. ring. Qed.
Lemma circular_scale m1 m2 c1 c2 n1 n2 x g k1 k2 s : circular m1 m2 c1 c2 n1 n2 (fun i j => x i j * s) g k1 k2 = circular m1 m2 c1 c2 n1 n2 x g k1 k2 * s.
Proof.
  unfold circular. etransitivity; [|apply (csum_mul_r RR_laws)]. apply (csum_ext (K := RR)). intros i1 _. etransitivity; [|apply (csum_mul_r RR_laws)]. apply (csum_ext (K := RR)). intros i2 _.
  etransitivity; [|apply (csum_mul_r RR_laws)]. apply (csum_ext (K := RR)). intros j1 _. etransitivity; [|apply (csum_mul_r RR_laws)]. apply (csum_ext (K := RR)). intros j2 _.
  cbn [cmul RR car]; destruct (_ && _); [apply swap3|symmetry; apply Rmult_0_l].
Qed.
Lemma convolve_scale pocket fast frac n1 n2 S0 G s b k1 k2 : fast_ok fast -> (0 < n1)%nat -> (0 < n2)%nat -> pocket = true \/ Nat.even (padded fast frac n2) = true ->
  cu_at (convolve_model pocket fast frac n1 n2 (fun b i j => S0 i j * s b) G) b k1 k2 = cu_at (convolve_model pocket fast frac n1 n2 (fun _ => S0) G) O k1 k2 * s b.
Proof. intros F P1 P2 L. rewrite !convolve_at by assumption. apply circular_scale. Qed.
Lemma nearest_unique n freqs f0 k k' : nearest n freqs f0 k -> nearest n freqs f0 k' -> k = k'.
Proof.
  intros [A B] [A' B']. destruct (Nat.lt_trichotomy k k') as [L|[E|L]]; [|exact E|].
  - pose proof (proj1 (B k' A')). pose proof (proj2 (B' k A) L). lra.
  - pose proof (proj1 (B' k A)). pose proof (proj2 (B k' A') L). lra.
Qed.
Lemma power_main pocket fast o rd h S0 f ax nband k0 step value : fast_ok fast -> pocket = true \/ Nat.even (padded fast (o_padding o) (naxis1 h)) = true ->
  describes_bands h ax nband (INR k0 + 1) step value -> (k0 < nband)%nat -> 0 < value ->
  spi_fit pocket fast o (Some rd) h (fun b i j => S0 i j * Rpower (band_freq (INR k0 + 1) step value b / value) (- (7 / 10))) None = Ok f ->
  forall i j, In (i, j) (f_mask f) ->
    let I := cu_at (restored_cube pocket fast o h (fun _ => S0) (f_kern f)) O i j in
    f_alpha f i j = - (7 / 10) /\ f_i0 f i j = I /\
    forall b, f_i0 f i j * Rpower (f_freqs f b / f_ref f) (f_alpha f i j) =
      cu_at (restored_cube pocket fast o h (fun b i j => S0 i j * Rpower (band_freq (INR k0 + 1) step value b / value) (- (7 / 10))) (f_kern f)) b i j.
Proof.
  intros F LC BD K0 VP H i j IN I. set (M := fun b i j => S0 i j * _) in *.
  destruct (fit_runs _ _ _ _ _ _ _ _ H) as (rd' & emaj & emin & pa & ax' & nband' & ref & st & val & G & conv & wt & out & E & R). injection E as <-. destruct R.
  destruct (bands_same _ _ _ _ _ _ _ _ _ _ _ run_bands BD) as (-> & -> & -> & -> & ->).
  assert (IN2 := IN). rewrite run_mask in IN2. apply mask_in in IN2; [|lia]. destruct IN2 as (I1 & I2 & _).
  assert (SZ : (0 < naxis2 h)%nat /\ (0 < naxis1 h)%nat).
  { pose proof (convolve_shape pocket fast (o_padding o) (naxis2 h) (naxis1 h) M G) as [A B]. rewrite <- run_conv in A, B. rewrite A in I1. rewrite B in I2.
    destruct (Nat.eqb _ _) in I1; [lia|]. destruct (Nat.eqb _ _) in I2; [lia|]. split; [lia|]. destruct (pocket || _) in I2; lia. }
  assert (CV : forall b, cu_at conv b i j = I * Rpower (band_freq (INR k0 + 1) step value b / value) (- (7 / 10))).
  { intros b. rewrite run_conv. unfold I, restored_cube. rewrite run_k. unfold M. apply (convolve_scale pocket fast (o_padding o) (naxis2 h) (naxis1 h) S0 G (fun b => Rpower (band_freq (INR k0 + 1) step value b / value) (- (7 / 10)))); tauto. }
  apply (In_nth _ _ (0, 0)%nat) in IN. destruct IN as (c & CL & CN).
  assert (FB : f_beam f = None) by exact run_interp. rewrite FB in run_out.
  assert (FQ : forall b, f_freqs f b = band_freq (INR k0 + 1) step value b) by (intros b; rewrite run_freqs; reflexivity).
  assert (Q0 : band_freq (INR k0 + 1) step value k0 = value) by (unfold band_freq; ring).
  assert (TOL : 1 / 10 ^ 5 < 1) by (cbn; lra).
  assert (ST : starts_at nband (cut conv (f_mask f) None) (f_freqs f) value None None None c (- (7 / 10), I)).
  { split; [reflexivity|]. destruct (C56_iterations (S c) nband Float64 (cut conv (f_mask f) None) wt (f_freqs f) value None None None (1 / 10 ^ 5) 100 c ltac:(discriminate) TOL ltac:(lia) ltac:(lia) run_n2 ltac:(lia))
      as (o1 & k1 & p1 & _ & _ & [_ (near & NE & _)] & _).
    exists near. split; [exact NE|]. cbn [beam_or_1 snd]. unfold cut. rewrite CN. cbn [fst snd]. rewrite CV.
    assert (NV : f_freqs f near = value).
    { pose proof (proj1 (proj2 NE k0 K0)) as A. rewrite (FQ k0), Q0 in A. replace (value - value) with 0 in A by ring. rewrite Rabs_R0 in A. pose proof (Rabs_pos (f_freqs f near - value)) as P.
      destruct (Req_dec (f_freqs f near - value) 0) as [Z|Z]; [lra|]. pose proof (Rabs_pos_lt _ Z). lra. }
    rewrite <- FQ, NV. replace (value / value) with 1 by (field; lra). unfold Rpower. rewrite ln_1, Rmult_0_r, exp_0. field. }
  assert (EX : exists out, fit_spi_components (List.length (f_mask f)) nband Float64 (cut conv (f_mask f) None) wt (f_freqs f) value None None None (1 / 10 ^ 5) 100 = Ok out /\ out 0%nat c = - (7 / 10) /\ out 1%nat c = 0 /\ out 2%nat c = I /\ out 3%nat c = 0).
  { apply C56_exact_data; try assumption; try discriminate; try lia. intros v V. unfold cut. rewrite CN. cbn [fst snd]. rewrite CV. unfold spectrum. cbn [beam_or_1]. rewrite <- FQ. ring. }
  destruct EX as (out' & EO & A0 & _ & A2 & _). rewrite run_out in EO. injection EO as <-.
  assert (ND : NoDup (f_mask f)) by (rewrite run_mask; apply mask_nodup).
  destruct (scatter_ok _ _ _ _ _ ND ltac:(rewrite map_length, seq_length; reflexivity) run_alpha) as (_ & AV & _).
  destruct (scatter_ok _ _ _ _ _ ND ltac:(rewrite map_length, seq_length; reflexivity) run_i0) as (_ & IV & _).
  specialize (AV c CL). specialize (IV c CL). rewrite CN, nth_map_seq in AV, IV by exact CL. cbn [fst snd] in AV, IV. rewrite A0 in AV. rewrite A2 in IV.
  split; [exact AV|]. split; [exact IV|]. intros b. rewrite AV, IV, FQ, run_ref. unfold restored_cube at 1. rewrite run_k, <- run_conv. symmetry. apply CV.
Qed.

(* ---- what is refused before the pixels are looked at ---- *)
Lemma refused_main pocket fast o resid h M interp :
  (resid = None -> spi_fit pocket fast o resid h M interp = Raise ValueError) /\
  (forall rd, resid = Some rd ->
    (o_beampars o = None -> r_beam rd = None -> spi_fit pocket fast o resid h M interp = Raise KeyError) /\
    (forall l, o_beampars o = Some l -> List.length l <> 3%nat -> spi_fit pocket fast o resid h M interp = Raise TypeError) /\
    (forall b, beam_given o rd b -> ~ degrees (cunit1 h) \/ ~ degrees (cunit2 h) \/ (forall ax nb r d v, ~ describes_bands h ax nb r d v) -> spi_fit pocket fast o resid h M interp = Raise ValueError)).
Proof.
  split; [intros ->; reflexivity|]. intros rd ->. unfold spi_fit. split; [|split].
  - intros -> ->. reflexivity.
  - intros l -> N. destruct l as [|x [|y [|z [|w l]]]]; try reflexivity. exfalso. now apply N.
  - intros [[x y] z] B H.
    assert (EB : match o_beampars o with None => match r_beam rd with None => Raise KeyError | Some b => Ok b end | Some [x; y; z] => Ok (x, y, z) | Some _ => Raise TypeError end = Ok (x, y, z)).
    { destruct B as [[-> ->]|B]; [reflexivity|]. rewrite B. reflexivity. }
    rewrite EB. cbn [bind]. destruct (is_degrees (cunit1 h)) eqn:U1; [|reflexivity]. destruct (is_degrees (cunit2 h)) eqn:U2; [|reflexivity]. cbn [negb]. cbv zeta.
    apply is_degrees_spec in U1, U2. destruct H as [H|[H|H]]; try contradiction. destruct (freq_axis h) as [[[[[ax nb] r] d] v]|e] eqn:EF.
    + exfalso. apply (H ax nb r d v). now apply axis_bands.
    + apply axis_value_error in EF. now subst.
Qed.
Lemma few_bands pocket fast o resid h M interp ax nband ref step value : describes_bands h ax nband ref step value -> (nband = 1 \/ nband = 2)%nat ->
  forall f, spi_fit pocket fast o resid h M interp <> Ok f.
Proof.
  intros BD N f H. destruct (fit_runs _ _ _ _ _ _ _ _ H) as (rd & emaj & emin & pa & ax' & nband' & ref' & st & val & G & conv & wt & out & E & R). destruct R.
  destruct (bands_same _ _ _ _ _ _ _ _ _ _ _ run_bands BD) as (_ & -> & _). lia.
Qed.

(* ---- files ---- *)
Lemma find_app c l k : ~ In c l -> forall r, find c (l ++ c :: r) k = Some (k + List.length l)%nat.
Proof.
  revert k. induction l as [|x l IH]; intros k N r; cbn [app find List.length].
  - rewrite Ascii.eqb_refl. f_equal. lia.
  - destruct (Ascii.eqb_spec x c) as [->|NE]; [exfalso; apply N; now left|]. rewrite IH by (intros I; apply N; now right). f_equal. lia.
Qed.
Lemma find_none c l k : ~ In c l -> find c l k = None.
Proof.
  revert k. induction l as [|x l IH]; intros k N; cbn [find]; [reflexivity|]. destruct (Ascii.eqb_spec x c) as [->|NE]; [exfalso; apply N; now left|]. apply IH. intros I. apply N. now right.
Qed.
Lemma ascii_app a b : list_ascii_of_string (a ++ b)%string = list_ascii_of_string a ++ list_ascii_of_string b.
Proof. induction a as [|c a IH]; [reflexivity|]. cbn. now rewrite IH. Qed.
Lemma prefix_main o : 
  (forall p, o_outfile o = Some p -> prefix o = p) /\
  (forall d b, o_outfile o = None -> o_fitsmodel o = (d ++ "/" ++ b)%string -> no_slash b -> b <> ""%string -> prefix o = (d ++ "/")%string) /\
  (o_outfile o = None -> no_slash (o_fitsmodel o) -> prefix o = "image-"%string).
Proof.
  unfold prefix. split; [intros p ->; reflexivity|]. split.
  - intros d b -> E NS NE. rewrite E, !ascii_app. cbn [list_ascii_of_string app]. rewrite rev_app_distr. cbn [rev]. rewrite <- app_assoc. cbn [app].
    rewrite (find_app "/"%char (rev (list_ascii_of_string b)) 0) by (intros I; apply NS; apply in_rev; exact I). rewrite rev_length, Nat.add_0_l.
    assert (LB : List.length (list_ascii_of_string b) <> 0%nat) by (destruct b; [congruence|cbn; lia]).
    destruct (Nat.eqb_spec (List.length (list_ascii_of_string b)) 0) as [Z|_]; [contradiction|]. rewrite app_length. cbn [List.length].
    replace (List.length (list_ascii_of_string d) + S (List.length (list_ascii_of_string b)) - List.length (list_ascii_of_string b))%nat with (List.length (list_ascii_of_string (d ++ "/")%string) + 0)%nat by (rewrite ascii_app, app_length; cbn [list_ascii_of_string List.length]; lia).
    replace (list_ascii_of_string d ++ "/"%char :: list_ascii_of_string b) with (list_ascii_of_string (d ++ "/")%string ++ list_ascii_of_string b) by (rewrite ascii_app, <- app_assoc; reflexivity).
    rewrite firstn_app_2. cbn [firstn]. rewrite app_nil_r. apply string_of_list_ascii_of_string.
  - intros -> NS. rewrite find_none; [reflexivity|]. intros I. apply NS. now apply in_rev.
Qed.
Lemma append_inj a b c : (a ++ b = a ++ c)%string -> b = c.
Proof. induction a as [|x a IH]; [tauto|]. cbn. intros H. injection H as H. now apply IH. Qed.
Lemma missing_card pocket fast o rd h M interp f k : spi_fit pocket fast o (Some rd) h M interp = Ok f -> In k hdr_keys -> r_cards rd k = false ->
  snd (spi_main pocket fast o (Some rd) h M interp) = Some KeyError /\
  (forall p, ~ In ((prefix o ++ "alpha.fits")%string, p) (fst (spi_main pocket fast o (Some rd) h M interp))) /\
  (forall p, ~ In ((prefix o ++ "I0.fits")%string, p) (fst (spi_main pocket fast o (Some rd) h M interp))) /\
  (asked "I" o = true -> exists p, In ((prefix o ++ "Irec_cube.fits")%string, p) (fst (spi_main pocket fast o (Some rd) h M interp))).
Proof.
  intros E K C. unfold spi_main. rewrite E. cbv zeta. assert (Z : forallb (r_cards rd) hdr_keys = false).
  { destruct (forallb _ _) eqn:F; [|reflexivity]. rewrite forallb_forall in F. rewrite (F k K) in C. discriminate. }
  rewrite Z. cbn [negb fst snd]. split; [reflexivity|]. 
  assert (NAMES : forall n p, In (n, p) ((if asked "I" o then [((prefix o ++ "Irec_cube.fits")%string, Cube (f_axis f) (f_nband f) (naxis1 h) (naxis2 h) (fun b i j => f_i0 f i j * Rpower (f_freqs f b / f_ref f) (f_alpha f i j)))] else []) ++
     match f_beam f with Some bs => if asked "b" o then [((prefix o ++ "interpolated_beam_cube.fits")%string, Cube (f_axis f) (f_nband f) (naxis1 h) (naxis2 h) (fun b i j => match place (i, j) (f_mask f) 0 with Some c => bs c b | None => 0 end))] else [] | None => [] end) ->
     n = (prefix o ++ "Irec_cube.fits")%string \/ n = (prefix o ++ "interpolated_beam_cube.fits")%string).
  { intros n p I. apply in_app_or in I. destruct I as [I|I].
    - destruct (asked "I" o); [|contradiction]. destruct I as [I|[]]. injection I as <- _. now left.
    - destruct (f_beam f); [|contradiction]. destruct (asked "b" o); [|contradiction]. destruct I as [I|[]]. injection I as <- _. now right. }
  split; [|split].
  - intros p I. apply NAMES in I. destruct I as [I|I]; apply append_inj in I; discriminate.
  - intros p I. apply NAMES in I. destruct I as [I|I]; apply append_inj in I; discriminate.
  - intros ->. eexists. left. reflexivity.
Qed.
Lemma written_main pocket fast o rd h M interp f : spi_fit pocket fast o (Some rd) h M interp = Ok f -> (forall k, In k hdr_keys -> r_cards rd k = true) ->
  exists files, spi_main pocket fast o (Some rd) h M interp = (files, None) /\
    (forall p, In ((prefix o ++ "alpha.fits")%string, p) files <-> asked "a" o = true /\ p = Plane (naxis1 h) (naxis2 h) (f_alpha f)) /\
    (forall p, In ((prefix o ++ "I0.fits")%string, p) files <-> asked "i" o = true /\ p = Plane (naxis1 h) (naxis2 h) (f_i0 f)) /\
    (forall p, In ((prefix o ++ "clean-beam.fits")%string, p) files <-> asked "c" o = true /\ p = Plane (naxis2 h) (naxis1 h) (f_kern f)) /\
    (forall p, In ((prefix o ++ "Irec_cube.fits")%string, p) files <-> asked "I" o = true /\
       p = Cube (f_axis f) (f_nband f) (naxis1 h) (naxis2 h) (fun b i j => f_i0 f i j * Rpower (f_freqs f b / f_ref f) (f_alpha f i j))).
Proof.
  intros E K. unfold spi_main. rewrite E. cbv zeta. rewrite (proj2 (forallb_forall (r_cards rd) hdr_keys) K). cbn [negb]. eexists. split; [reflexivity|].
  set (A := prefix o). 
  assert (NEQ : forall x y, x <> y -> (A ++ x)%string <> (A ++ y)%string) by (intros x y N Q; apply N; now apply append_inj in Q).
  assert (ONE : forall (cond : bool) (n : string) (q : product) (n' : string) (p : product), In (n', p) (if cond then [(n, q)] else []) <-> cond = true /\ n' = n /\ p = q).
  { intros cond n q n' p. destruct cond.
    - split; [intros [I|[]]; injection I as <- <-; tauto|intros (_ & -> & ->); now left].
    - split; [intros []|intros [? _]; discriminate]. }
  assert (BM : forall (n' : string) (p : product), In (n', p) match f_beam f with Some bs => if asked "b" o then [((A ++ "interpolated_beam_cube.fits")%string, Cube (f_axis f) (f_nband f) (naxis1 h) (naxis2 h) (fun b i j => match place (i, j) (f_mask f) 0 with Some c => bs c b | None => 0 end))] else [] | None => [] end -> n' = (A ++ "interpolated_beam_cube.fits")%string).
  { intros n' p I. destruct (f_beam f); [|contradiction]. apply ONE in I. tauto. }
  assert (GO : forall (n : string) (p : product) (rec bm al i0 cb : list (string * product)) (c : bool) (q : product), (In (n, p) rec -> c = true /\ p = q) -> (In (n, p) bm -> c = true /\ p = q) -> (In (n, p) al -> c = true /\ p = q) -> (In (n, p) i0 -> c = true /\ p = q) ->
     (In (n, p) cb -> c = true /\ p = q) -> (c = true /\ p = q -> In (n, p) (rec ++ bm ++ al ++ i0 ++ cb)) -> In (n, p) (rec ++ bm ++ al ++ i0 ++ cb) <-> c = true /\ p = q).
  { intros n p rec bm al i0 cb c q H1 H2 H3 H4 H5 H6. split; [|exact H6]. intros I. repeat (apply in_app_or in I; destruct I as [I|I]); auto. }
  assert (BAD : forall x y, x <> y -> (A ++ x)%string = (A ++ y)%string -> False) by (intros x y N Q; now apply (NEQ x y N)).
  repeat apply conj; intros p; apply GO;
    try (intros I; apply ONE in I; destruct I as (I1 & I2 & I3); first [split; [exact I1|exact I3]|exfalso; refine (BAD _ _ _ I2); discriminate]);
    try (intros I; apply BM in I; exfalso; refine (BAD _ _ _ I); discriminate);
    intros [C ->]; rewrite !in_app_iff, !ONE; tauto.
Qed.
