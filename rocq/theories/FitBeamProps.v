(* C108: the primary beam that the spectral index fitter divides by *)
From Coq Require Import Reals Lra.
From Coq Require Import String Ascii.
From Verif Require Import Prelude CRing CplxR DaskPredictModel BeamModel BeamSpec FitterModel FitterSpec FitBeamModel FitBeamSpec FitBeamProofs FitBeamProofs2 FitBeamProofs3 FitBeamProofs4.
Open Scope list_scope.
Open Scope R_scope.

(* The four images are found by their names, in any order and among cross hands, if the directory and the stem have none of the tags in them. *)
Theorem C108_files : forall disk name paths h1 h2, In (h1, h2) hands -> (forall t, In t (hand1 ++ hand2 ++ parts) -> ~ occurs t name) ->
  (forall p, In p paths -> exists corr part, p = beam_file name corr part /\ In part parts /\ (corr = h1 \/ corr = h2 \/ forall t, In t (hand1 ++ hand2) -> ~ occurs t corr)) ->
  (forall corr part, corr = h1 \/ corr = h2 -> In part parts -> In (beam_file name corr part) paths) ->
  loads disk paths (fst (disk (beam_file name h1 "re"))) (snd (disk (beam_file name h1 "re"))) (snd (disk (beam_file name h1 "im"))) (snd (disk (beam_file name h2 "re"))) (snd (disk (beam_file name h2 "im"))).
Proof. exact files_main. Qed.
Print Assumptions C108_files.

(* The tags are looked for in the whole path: with "re" in the directory no beam is ever read (NameError), with xx, XX, rr or RR none succeeds. *)
Theorem C108_directory_refuted : forall name paths disk h nband mask freqs, (forall p, In p paths -> exists s, p = (name ++ s)%string) ->
  (occurs "re" name -> name <> "eidos"%string -> interpolate_beam name paths disk h nband mask freqs = Raise NameError) /\
  ((exists t, In t hand1 /\ occurs t name) -> forall out, interpolate_beam name paths disk h nband mask freqs <> Ok out).
Proof. exact directory_main. Qed.
Print Assumptions C108_directory_refuted.

(* What is returned: the average power of the two hands, interpolated in frequency; but read at row = column position of the source, shrunk by
   (rows - 1) / columns, and column = row position, shrunk by (columns - 1) / rows. *)
Theorem C108_value : forall name paths disk h nband mask freqs bh a b c d, name <> "eidos"%string -> loads disk paths bh a b c d -> usable bh -> mask <> [] -> covers bh h mask ->
  exists out, interpolate_beam name paths disk h nband mask freqs = Ok out /\
  forall s i j f, nth_error mask s = Some (i, j) -> (f < nband)%nat ->
    exists sc w k, freq_plane (bh_naxis3 bh) (band_freq (bh_crpix3 bh) (bh_cdelt3 bh) (bh_crval3 bh)) (freqs f) sc w k /\ (S k < bh_naxis3 bh)%nat /\
      let col := pixel (bh_crpix1 bh) (bh_cdelt1 bh) (sc * coordinate (crpix1 h) (cdelt1 h) j) in
      let row := pixel (bh_crpix2 bh) (bh_cdelt2 bh) (sc * coordinate (crpix2 h) (cdelt2 h) i) in
      out s f = sampled (bh_naxis2 bh) (bh_naxis1 bh) (stokes_i a b c d) w k
        (clamp 0 (INR (bh_naxis2 bh) - 1) (col * ((INR (bh_naxis2 bh) - 1) / INR (bh_naxis1 bh))))
        (clamp 0 (INR (bh_naxis1 bh) - 1) (row * ((INR (bh_naxis1 bh) - 1) / INR (bh_naxis2 bh)))).
Proof. exact value_main. Qed.
Print Assumptions C108_value.

(* The beam divided by lies between the smallest and the largest sample; a flat beam is returned as it is. *)
Theorem C108_bounds : forall name paths disk h nband mask freqs bh a b c d, name <> "eidos"%string -> loads disk paths bh a b c d -> usable bh -> mask <> [] -> covers bh h mask ->
  exists out, interpolate_beam name paths disk h nband mask freqs = Ok out /\
  forall lo hi, (forall p i j, (p < bh_naxis3 bh)%nat -> (i < bh_naxis2 bh)%nat -> (j < bh_naxis1 bh)%nat -> lo <= stokes_i a b c d p i j <= hi) ->
  forall s f, (s < List.length mask)%nat -> (f < nband)%nat -> lo <= out s f <= hi.
Proof. exact bounds_main. Qed.
Print Assumptions C108_bounds.

(* At the centre of a beam that is one there and zero in all other pixels, less than one half is returned. *)
Theorem C108_centre_refuted : forall name paths disk h nband mask freqs bh a b c d q, name <> "eidos"%string -> loads disk paths bh a b c d -> usable bh -> mask <> [] -> covers bh h mask ->
  bh_naxis1 bh = (2 * q + 1)%nat -> bh_naxis2 bh = (2 * q + 1)%nat -> bh_crpix1 bh = INR q + 1 -> bh_crpix2 bh = INR q + 1 ->
  (forall p i j, stokes_i a b c d p i j = if (Nat.eqb i q && Nat.eqb j q)%bool then 1 else 0) ->
  exists out, interpolate_beam name paths disk h nband mask freqs = Ok out /\
  forall s i j f, nth_error mask s = Some (i, j) -> coordinate (crpix1 h) (cdelt1 h) j = 0 -> coordinate (crpix2 h) (cdelt2 h) i = 0 -> (f < nband)%nat ->
    out s f = Rsqr ((INR q + 1) / (2 * INR q + 1)) /\ out s f < 1 / 2.
Proof. exact centre_main. Qed.
Print Assumptions C108_centre_refuted.

(* A beam that changes only along its columns (with l) is the same for all the sources of an image row, which differ in l alone. *)
Theorem C108_axes_exchanged_refuted : forall name paths disk h nband mask freqs bh a b c d g, name <> "eidos"%string -> loads disk paths bh a b c d -> usable bh -> mask <> [] -> covers bh h mask ->
  (forall p i j, stokes_i a b c d p i j = g p j) ->
  exists out, interpolate_beam name paths disk h nband mask freqs = Ok out /\
  forall s s' i j j' f, nth_error mask s = Some (i, j) -> nth_error mask s' = Some (i, j') -> (f < nband)%nat -> out s f = out s' f.
Proof. exact axes_main. Qed.
Print Assumptions C108_axes_exchanged_refuted.

(* Refusals.  An axis that runs backwards, as the right ascension of any sky image does, is always refused as not large enough. *)
Theorem C108_refused : forall name paths disk h nband mask freqs,
  (name = "eidos"%string -> interpolate_beam name paths disk h nband mask freqs = Raise NotImplementedError) /\
  (name <> "eidos"%string -> paths = [] -> interpolate_beam name paths disk h nband mask freqs = Raise NameError) /\
  (forall bh a b c d, name <> "eidos"%string -> loads disk paths bh a b c d ->
    ~ degrees (bh_cunit1 bh) \/ ~ degrees (bh_cunit2 bh) \/ bh_ctype3 bh <> "FREQ"%string \/ mask = [] \/ (bh_naxis1 bh < 2 \/ bh_naxis2 bh < 2 \/ bh_naxis3 bh < 2)%nat \/
    (0 < bh_cdelt1 bh /\ 0 < bh_cdelt2 bh /\ ~ covers bh h mask) \/ (bh_cdelt1 bh < 0 /\ (0 < bh_naxis1 bh)%nat) \/ (bh_cdelt2 bh < 0 /\ (0 < bh_naxis2 bh)%nat) ->
    interpolate_beam name paths disk h nband mask freqs = Raise ValueError).
Proof. exact refused_beam. Qed.
Print Assumptions C108_refused.

(* non-vacuity: a beam of 3 x 3 pixels and two channels that is one at its centre, in files beam_xx_re.fits and so on; an image of 3 x 3 pixels *)
Definition ex_bh : beam_hdr := {| bh_cunit1 := "deg"; bh_cunit2 := "deg"; bh_ctype3 := "FREQ"; bh_naxis1 := 3; bh_naxis2 := 3; bh_naxis3 := 2;
  bh_crpix1 := INR 1 + 1; bh_crpix2 := INR 1 + 1; bh_crpix3 := 1; bh_cdelt1 := 1; bh_cdelt2 := 1; bh_cdelt3 := 1; bh_crval3 := 1 |}%string.
Definition ex_peak : arr3 R := fun _ i j => if (Nat.eqb i 1 && Nat.eqb j 1)%bool then 1 else 0.
Definition ex_disk (p : string) : beam_image := (ex_bh, if contains "re" p then ex_peak else fun _ _ _ => 0).
Definition ex_paths : list string := [beam_file "beam" "xy" "im"; beam_file "beam" "yy" "im"; beam_file "beam" "xx" "re"; beam_file "beam" "yy" "re"; beam_file "beam" "xx" "im"].
Definition ex_img : fits_hdr := {| cunit1 := "deg"; cunit2 := "deg"; ctype3 := "STOKES"; ctype4 := "FREQ"; naxis1 := 3; naxis2 := 3; naxis3 := 1; naxis4 := 3;
  crpix1 := 2; crpix2 := 2; crpix3 := 1; crpix4 := 1; cdelt1 := -1; cdelt2 := 1; cdelt3 := 1; cdelt4 := 1; crval3 := 1; crval4 := 1 |}%string.
Lemma ex_loads : loads ex_disk ex_paths ex_bh ex_peak (fun _ _ _ => 0) ex_peak (fun _ _ _ => 0).
Proof.
  apply (C108_files ex_disk "beam" ex_paths "xx" "yy").
  - now left.
  - intros t I O. apply contains_spec in O. cbn in I. repeat (destruct I as [<-|I]; [discriminate O|]). exact I.
  - intros p I. cbn in I. destruct I as [<-|[<-|[<-|[<-|[<-|[]]]]]].
    + exists "xy"%string, "im"%string. split; [reflexivity|]. split; [cbn; tauto|]. right. right. intros t I O. apply contains_spec in O. cbn in I. repeat (destruct I as [<-|I]; [discriminate O|]). exact I.
    + exists "yy"%string, "im"%string. cbn. tauto.
    + exists "xx"%string, "re"%string. cbn. tauto.
    + exists "yy"%string, "re"%string. cbn. tauto.
    + exists "xx"%string, "im"%string. cbn. tauto.
  - intros corr part [->| ->] [<-|[<-|[]]]; cbn; tauto.
Qed.
Lemma ex_usable : usable ex_bh.
Proof. repeat split; cbn; try lia; try lra; now right. Qed.
Lemma ex_covers : covers ex_bh ex_img [(1, 1); (1, 0)]%nat.
Proof. intros i j [E|[E|[]]]; injection E as <- <-; unfold pixel, coordinate; cbn; lra. Qed.
Example C108_ex_centre : exists out, interpolate_beam "beam" ex_paths ex_disk ex_img 3 [(1, 1); (1, 0)]%nat (fun f => INR f + 1) = Ok out /\ out 0%nat 0%nat = Rsqr (2 / 3).
Proof.
  destruct (C108_centre_refuted "beam" ex_paths ex_disk ex_img 3 [(1, 1); (1, 0)]%nat (fun f => INR f + 1) ex_bh ex_peak (fun _ _ _ => 0) ex_peak (fun _ _ _ => 0) 1) as (out & E & V);
    try exact ex_loads; try exact ex_usable; try exact ex_covers; try discriminate; try reflexivity.
  - intros p i j. unfold stokes_i, ex_peak. destruct (_ && _); field.
  - exists out. split; [exact E|]. destruct (V 0%nat 1%nat 1%nat 0%nat eq_refl) as [X _]; try (unfold coordinate; cbn; lra); [lia|]. rewrite X. f_equal. cbn [INR]. field.
Qed.
Example C108_ex_directory : occurs "re" "/data/research/beam" /\ occurs "rr" "/data/carrier/beam" /\ In "rr"%string hand1.
Proof. split; [exists "/data/"%string, "search/beam"%string; reflexivity|]. split; [exists "/data/ca"%string, "ier/beam"%string; reflexivity|cbn; tauto]. Qed.
