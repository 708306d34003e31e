(* C107: what the spectral index fitter writes, and when it cannot *)
From Coq Require Import Reals Lra.
From Coq Require Import String Ascii.
From Verif Require Import Prelude CRing CplxR DaskPredictModel ApplyGainsModel SpiModel SpiSpec FftFacts RestoreModel RestoreSpec FitterModel FitterSpec FitterProofs FitterProofs2 FitterProofs3 FitterProofs4 FitterProofs5.
Open Scope list_scope.
Open Scope R_scope.

(* When a fit succeeds: the pixels fitted are exactly those above threshold times rms of the residual in every band; each holds the fit of its spectrum,
   divided by the beam if one is given, with weights one over the variance of each band; every other pixel of the maps is zero. *)
Theorem C107_maps : forall pocket fast o resid h M interp f, (0 < f_nband f)%nat -> spi_fit pocket fast o resid h M interp = Ok f ->
  exists rd ref step value wt,
    resid = Some rd /\ ready o rd h (f_axis f) (f_nband f) ref step value (f_kern f) /\
    (forall b, f_freqs f b = band_freq ref step value b) /\ f_ref f = value /\
    match interp with None => f_beam f = None | Some g => exists bs, g (f_mask f) (f_freqs f) = Ok bs /\ f_beam f = Some bs end /\
    ((exists b, (b < f_nband f)%nat /\ 0 < rms b 1 (naxis2 h) (naxis1 h) (r_data rd)) ->
       inverse_variance (f_nband f) (fun b => rms b 1 (naxis2 h) (naxis1 h) (r_data rd)) wt) /\
    let conv := restored_cube pocket fast o h M (f_kern f) in let t := level o rd h (f_nband f) in
    lists_bright (f_mask f) (f_nband f) conv t /\
    (forall i j, bright (f_nband f) conv t i j -> (i < naxis1 h)%nat /\ (j < naxis2 h)%nat) /\
    (forall c i j, nth_error (f_mask f) c = Some (i, j) ->
       fit_of (f_nband f) (fun b => match f_beam f with None => cu_at conv b i j | Some bs => cu_at conv b i j / bs c b end) wt (f_freqs f) value (f_alpha f i j) (f_i0 f i j)) /\
    (forall i j, ~ bright (f_nband f) conv t i j -> f_alpha f i j = 0 /\ f_i0 f i j = 0).
Proof. exact maps_main. Qed.
Print Assumptions C107_maps.

(* The number of threads cannot change the result, only whether there is one. *)
Theorem C107_threads_irrelevant : forall pocket fast o o' resid h M interp f f', same_but_threads o o' ->
  spi_fit pocket fast o resid h M interp = Ok f -> spi_fit pocket fast o' resid h M interp = Ok f' -> f = f'.
Proof. exact threads_main. Qed.
Print Assumptions C107_threads_irrelevant.

(* A sky of power laws of index -0.7 at the band of the reference pixel gives maps of exactly -0.7 and of the restored intensity, and the
   reconstructed cube is the restored one. *)
Theorem C107_power_law : forall pocket fast o rd h S0 f ax nband k0 step value, fast_ok fast -> pocket = true \/ Nat.even (padded fast (o_padding o) (naxis1 h)) = true ->
  describes_bands h ax nband (INR k0 + 1) step value -> (k0 < nband)%nat -> 0 < value ->
  spi_fit pocket fast o (Some rd) h (fun b i j => S0 i j * Rpower (band_freq (INR k0 + 1) step value b / value) (- (7 / 10))) None = Ok f ->
  forall i j, In (i, j) (f_mask f) ->
    let I := cu_at (restored_cube pocket fast o h (fun _ => S0) (f_kern f)) O i j in
    f_alpha f i j = - (7 / 10) /\ f_i0 f i j = I /\
    forall b, f_i0 f i j * Rpower (f_freqs f b / f_ref f) (f_alpha f i j) =
      cu_at (restored_cube pocket fast o h (fun b i j => S0 i j * Rpower (band_freq (INR k0 + 1) step value b / value) (- (7 / 10))) (f_kern f)) b i j.
Proof. exact power_main. Qed.
Print Assumptions C107_power_law.

(* With three or more bands and everything in the headers, the outcome depends only on the bright pixels. *)
Theorem C107_outcome : forall pocket fast o rd h M ax nband ref step value G nt, ready o rd h ax nband ref step value G -> thread_count o nt -> (0 < nt)%nat ->
  let conv := restored_cube pocket fast o h M G in let t := level o rd h nband in
  (forall l, lists_bright l nband conv t ->
    (l = [] -> spi_fit pocket fast o (Some rd) h M None = Raise ValueError) /\
    (l <> [] -> (List.length l < nt)%nat -> spi_fit pocket fast o (Some rd) h M None = Raise ZeroDivision) /\
    ((nt <= List.length l)%nat -> (exists i j, bright nband conv t i j /\ (naxis1 h <= i \/ naxis2 h <= j)%nat) -> spi_fit pocket fast o (Some rd) h M None = Raise IndexError) /\
    ((nt <= List.length l)%nat -> (forall i j, bright nband conv t i j -> (i < naxis1 h /\ j < naxis2 h)%nat) -> exists f, spi_fit pocket fast o (Some rd) h M None = Ok f)) /\
  exists l, lists_bright l nband conv t.
Proof.
  intros pocket fast o rd h M ax nband ref step value G nt RD T P. assert (E : nt = threads o) by (unfold threads; destruct T as [[N ->]|[N ->]]; [destruct (Nat.eqb_spec (o_ncpu o) 0); [contradiction|reflexivity]|now rewrite N]).
  rewrite E in *. now apply (outcome_main pocket fast o rd h M ax nband ref step value G).
Qed.
Print Assumptions C107_outcome.

(* It is not so that every image with enough bright pixels can be fitted: the maps are made with the axes exchanged, so a source beyond row
   NAXIS1 of an image with more rows than columns ends the script. *)
Theorem C107_any_shape_refuted : ~ (forall pocket fast o rd h M ax nband ref step value G l nt, ready o rd h ax nband ref step value G -> thread_count o nt ->
  lists_bright l nband (restored_cube pocket fast o h M G) (level o rd h nband) -> (0 < nt <= List.length l)%nat -> exists f, spi_fit pocket fast o (Some rd) h M None = Ok f).
Proof.
  intros H. destruct ex_tall as (G & RD & B & E). destruct (outcome_main false None _ _ _ (ex_sky 20 8) _ _ _ _ _ _ RD ltac:(cbn; lia)) as (_ & l & LB).
  destruct (H false None _ _ _ (ex_sky 20 8) _ _ _ _ _ G l 1%nat RD (or_introl (conj (Nat.neq_succ_0 0) eq_refl)) LB) as [f F].
  - apply (proj2 LB) in B. destruct l; [destruct B|]. cbn. lia.
  - rewrite E in F. discriminate.
Qed.
Print Assumptions C107_any_shape_refuted.

(* The help text says that without a residual the threshold falls back to a dynamic range: no such run succeeds.  The other refusals: no beam in
   the residual header, a beam of other than three numbers, axes not in degrees, no frequency axis or several correlations. *)
Theorem C107_refused : forall pocket fast o resid h M interp,
  (resid = None -> spi_fit pocket fast o resid h M interp = Raise ValueError) /\
  (forall rd, resid = Some rd ->
    (o_beampars o = None -> r_beam rd = None -> spi_fit pocket fast o resid h M interp = Raise KeyError) /\
    (forall l, o_beampars o = Some l -> List.length l <> 3%nat -> spi_fit pocket fast o resid h M interp = Raise TypeError) /\
    (forall b, beam_given o rd b -> ~ degrees (cunit1 h) \/ ~ degrees (cunit2 h) \/ (forall ax nb r d v, ~ describes_bands h ax nb r d v) -> spi_fit pocket fast o resid h M interp = Raise ValueError)).
Proof. exact refused_main. Qed.
Print Assumptions C107_refused.

(* One or two bands are never fitted. *)
Theorem C107_few_bands : forall pocket fast o resid h M interp ax nband ref step value, describes_bands h ax nband ref step value -> (nband = 1 \/ nband = 2)%nat ->
  forall f, spi_fit pocket fast o resid h M interp <> Ok f.
Proof. exact few_bands. Qed.
Print Assumptions C107_few_bands.

(* The files: exactly those asked for, with their shapes. *)
Theorem C107_files : forall pocket fast o rd h M interp f, spi_fit pocket fast o (Some rd) h M interp = Ok f -> (forall k, In k hdr_keys -> r_cards rd k = true) ->
  exists files, spi_main pocket fast o (Some rd) h M interp = (files, None) /\
    (forall p, In ((prefix o ++ "alpha.fits")%string, p) files <-> asked "a" o = true /\ p = Plane (naxis1 h) (naxis2 h) (f_alpha f)) /\
    (forall p, In ((prefix o ++ "I0.fits")%string, p) files <-> asked "i" o = true /\ p = Plane (naxis1 h) (naxis2 h) (f_i0 f)) /\
    (forall p, In ((prefix o ++ "clean-beam.fits")%string, p) files <-> asked "c" o = true /\ p = Plane (naxis2 h) (naxis1 h) (f_kern f)) /\
    (forall p, In ((prefix o ++ "Irec_cube.fits")%string, p) files <-> asked "I" o = true /\
       p = Cube (f_axis f) (f_nband f) (naxis1 h) (naxis2 h) (fun b i j => f_i0 f i j * Rpower (f_freqs f b / f_ref f) (f_alpha f i j))).
Proof. exact written_main. Qed.
Print Assumptions C107_files.

(* A card missing from the residual header is found only after the cubes are written: the run ends without the maps. *)
Theorem C107_missing_card : forall pocket fast o rd h M interp f k, spi_fit pocket fast o (Some rd) h M interp = Ok f -> In k hdr_keys -> r_cards rd k = false ->
  snd (spi_main pocket fast o (Some rd) h M interp) = Some KeyError /\
  (forall p, ~ In ((prefix o ++ "alpha.fits")%string, p) (fst (spi_main pocket fast o (Some rd) h M interp))) /\
  (forall p, ~ In ((prefix o ++ "I0.fits")%string, p) (fst (spi_main pocket fast o (Some rd) h M interp))) /\
  (asked "I" o = true -> exists p, In ((prefix o ++ "Irec_cube.fits")%string, p) (fst (spi_main pocket fast o (Some rd) h M interp))).
Proof. exact missing_card. Qed.
Print Assumptions C107_missing_card.

(* Without an output name the files go to the directory of the model, or are called image-... if the name has none. *)
Theorem C107_prefix : forall o, 
  (forall p, o_outfile o = Some p -> prefix o = p) /\
  (forall d b, o_outfile o = None -> o_fitsmodel o = (d ++ "/" ++ b)%string -> no_slash b -> b <> ""%string -> prefix o = (d ++ "/")%string) /\
  (o_outfile o = None -> no_slash (o_fitsmodel o) -> prefix o = "image-"%string).
Proof. exact prefix_main. Qed.
Print Assumptions C107_prefix.

(* non-vacuity: a point source in a 16 x 16 image of three bands is fitted, and its maps are exact *)
Example C107_ex_square : exists f, spi_fit false None ex_opts (Some ex_resid) (ex_hdr 16 16) (ex_sky 8 8) None = Ok f /\ In (8, 8)%nat (f_mask f) /\ f_alpha f 8%nat 8%nat = - (7 / 10) /\
  exists files, spi_main false None ex_opts (Some ex_resid) (ex_hdr 16 16) (ex_sky 8 8) None = (files, None) /\ In ("images/alpha.fits"%string, Plane 16 16 (f_alpha f)) files.
Proof.
  destruct ex_square as (f & F & IN). exists f. split; [exact F|]. split; [exact IN|]. split.
  - apply (C107_power_law false None ex_opts ex_resid (ex_hdr 16 16) (ex_point 8 8) f 4 3 1 1 5); try exact I; try lia; try lra; try exact F; try exact IN.
    + right. apply (ex_axis 16 3 eq_refl). cbn. lra.
    + left. repeat split; cbn; lia.
  - destruct (C107_files _ _ _ _ _ _ _ _ F ltac:(reflexivity)) as (files & E & A & _). exists files. split; [exact E|]. apply (A (Plane 16 16 (f_alpha f))). split; reflexivity.
Qed.
(* the bright pixels of that image: there are some, as C107_outcome asks *)
Example C107_ex_bright : exists G l, ready ex_opts ex_resid (ex_hdr 16 16) 4 3 (INR 1 + 1) 1 5 G /\ lists_bright l 3 (restored_cube false None ex_opts (ex_hdr 16 16) (ex_sky 8 8) G) (level ex_opts ex_resid (ex_hdr 16 16) 3) /\ l <> [].
Proof.
  destruct (ex_ready 16 16 ltac:(lia) ltac:(lia)) as (G & RD & G0 & GP). destruct (outcome_main false None _ _ _ (ex_sky 8 8) _ _ _ _ _ _ RD ltac:(cbn; lia)) as (_ & l & LB).
  exists G, l. split; [exact RD|]. split; [exact LB|]. pose proof (ex_bright 16 16 8 8 G eq_refl eq_refl ltac:(lia) ltac:(lia) ltac:(lia) ltac:(lia) G0 GP) as B. rewrite <- (ex_level 16 16) in B. apply (proj2 LB) in B. intros ->. destruct B.
Qed.
Example C107_ex_card : In "EQUINOX"%string hdr_keys /\ describes_bands (ex_hdr 16 16) 4 3 2 1 5 /\ ~ degrees "RAD" /\ no_slash "sky.fits".
Proof.
  split; [cbn; tauto|]. split; [left; repeat split; cbn; try lia; lra|]. split; [intros [H|H]; discriminate|]. cbn. intros H. repeat (destruct H as [H|H]; [discriminate|]). exact H.
Qed.

(* Which files are asked for: a product is written if its letter occurs anywhere in --products. *)
Theorem C107_asked : forall c o, asked c o = true <-> exists i, String.get i (o_output o) = Some c.
Proof.
  intros c o. unfold asked. rewrite existsb_exists. generalize (o_output o) as s. intros s. split.
  - intros (x & I & E). apply Ascii.eqb_eq in E. subst x. induction s as [|y s IH]; [contradiction|]. cbn in I. destruct I as [->|I].
    + now exists 0%nat.
    + destruct (IH I) as (i & G). now exists (S i).
  - intros (i & G). exists c. split; [|apply Ascii.eqb_refl]. revert i G. induction s as [|y s IH]; intros i G; [discriminate|].
    destruct i as [|i]; cbn in G; [injection G as ->; now left|]. right. eauto.
Qed.
Print Assumptions C107_asked.

(* The cube of the beam is written if there is a beam and "b" is asked for: at the pixels that were fitted it holds the values the
   spectra were divided by, elsewhere zero. *)
Theorem C107_beam_file : forall pocket fast o rd h M interp f, (0 < f_nband f)%nat -> spi_fit pocket fast o (Some rd) h M interp = Ok f ->
  match f_beam f with
  | Some bs => asked "b" o = true -> exists at_, In ((prefix o ++ "interpolated_beam_cube.fits")%string, Cube (f_axis f) (f_nband f) (naxis1 h) (naxis2 h) at_)
                 (fst (spi_main pocket fast o (Some rd) h M interp)) /\
      (forall c i j b, nth_error (f_mask f) c = Some (i, j) -> at_ b i j = bs c b) /\ (forall b i j, ~ In (i, j) (f_mask f) -> at_ b i j = 0)
  | None => True end /\
  ((f_beam f = None \/ asked "b" o = false) -> forall p, ~ In ((prefix o ++ "interpolated_beam_cube.fits")%string, p) (fst (spi_main pocket fast o (Some rd) h M interp))).
Proof.
  intros pocket fast o rd h M interp f Hn E.
  destruct (C107_maps _ _ _ _ _ _ _ _ Hn E) as (? & ? & ? & ? & ? & _ & _ & _ & _ & _ & _ & (ND & _) & _).
  assert (PN : forall l k p, place p l k = None <-> ~ In p l).
  { induction l as [|q l IH]; intros k p; cbn; [tauto|]. destruct p as [i j], q as [i' j']; cbn [fst snd].
    destruct (Nat.eqb_spec i i'), (Nat.eqb_spec j j'); cbn [andb]; try (rewrite IH); intuition (try congruence).
  }
  assert (PS : forall l k p c, NoDup l -> nth_error l c = Some p -> place p l k = Some (k + c)%nat).
  { induction l as [|q l IH]; intros k p c Nd Hc; [destruct c; discriminate|]. inversion Nd as [|? ? Nq Nl]; subst. cbn. destruct p as [i j], q as [i' j']; cbn [fst snd].
    destruct c as [|c]; cbn in Hc.
    - injection Hc as -> ->. rewrite !Nat.eqb_refl. cbn. f_equal. lia.
    - assert (D : (i', j') <> (i, j)) by (intros Q; rewrite Q in Nq; apply Nq; eapply nth_error_In; eauto).
      replace (Nat.eqb i i' && Nat.eqb j j')%bool with false by (destruct (Nat.eqb_spec i i'), (Nat.eqb_spec j j'); cbn; congruence).
      rewrite (IH (S k) _ _ Nl Hc). f_equal. lia. }
  unfold spi_main. rewrite E. cbv zeta. set (A := prefix o).
  assert (NEQ : forall s1 s2, s1 <> s2 -> (A ++ s1)%string <> (A ++ s2)%string) by (intros s1 s2 N Q; apply N; now apply append_inj in Q).
  split.
  - destruct (f_beam f) as [bs|]; [|exact I]. intros ->. eexists. split; [|split].
    + destruct (forallb (r_cards rd) hdr_keys); cbn [negb fst]; rewrite !in_app_iff; right; left; reflexivity || (left; reflexivity).
    + intros c i j b Hc. cbv beta. rewrite (PS _ 0%nat _ _ ND Hc). reflexivity.
    + intros b i j Hc. cbv beta. apply (proj2 (PN _ 0%nat _)) in Hc. rewrite Hc. reflexivity.
  - intros H p. assert (B : match f_beam f with Some bs => if asked "b" o then [((A ++ "interpolated_beam_cube.fits")%string, Cube (f_axis f) (f_nband f) (naxis1 h) (naxis2 h) (fun b i j => match place (i, j) (f_mask f) 0 with Some c => bs c b | None => 0 end))] else [] | None => [] end = [])
      by (destruct H as [->| ->]; [reflexivity|destruct (f_beam f); reflexivity]).
    rewrite B. cbn [app]. intros Hp.
    destruct (forallb (r_cards rd) hdr_keys); cbn [negb fst] in Hp; rewrite ?in_app_iff in Hp;
      repeat match goal with H : _ \/ _ |- _ => destruct H as [H|H] end;
      match goal with H : In _ (if ?c then _ else _) |- _ => destruct c; cbn in H; [destruct H as [H|[]]; injection H as H _; refine (NEQ _ _ _ H); discriminate|contradiction] | H : In _ [] |- _ => contradiction end.
Qed.
Print Assumptions C107_beam_file.
