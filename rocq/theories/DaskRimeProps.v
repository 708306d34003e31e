(* C90: the dask wrappers of phase delays, parallactic angles, feed rotations, source coordinates, gaussian shapes and
   WSClean spectra (africanus/rime/dask.py, model/shape/dask.py, model/wsclean/dask.py), rime/jax/phase.py and
   rime/parangles_casa.py. *)
From Coq Require Import Reals Lra String.
From Verif Require Import Prelude CRing CplxR RimeModel RimeSpec DftModel SrcModel SrcSpec CohModel CohSpec DaskRimeModel DaskRimeSpec DaskRimeProofs.
Open Scope R_scope.

(* However sources, rows and channels are chunked, each phase delay is that of the whole arrays, and the same conventions are
   rejected. *)
Theorem C90_phase_delay : forall src rows chans lm uvw freq conv s r f,
  (s < list_sum src)%nat -> (r < list_sum rows)%nat -> (f < list_sum chans)%nat ->
  dask_phase_delay src rows chans [2%nat] [3%nat] lm uvw freq conv s r f =
  do! k <- phase_delay (list_sum src) (list_sum rows) (list_sum chans) lm uvw freq conv; Ok (k s r f).
Proof. exact dask_phase_eq. Qed.

(* Gaussian shapes. *)
Theorem C90_gaussian : forall src rows chans uvw freq sp g g' s r f,
  (s < list_sum src)%nat -> (r < list_sum rows)%nat -> (f < list_sum chans)%nat ->
  dask_gaussian src rows chans [3%nat] [3%nat] uvw freq sp g s r f =
  Ok (gaussian (list_sum src) (list_sum rows) (list_sum chans) uvw freq sp g' s r f).
Proof. exact dask_gaussian_eq. Qed.

(* Source coordinates in the beam. *)
Theorem C90_transform : forall src times ants chans lm pangles perr scaling freq g g' i s t a c,
  (i < 3)%nat -> (s < list_sum src)%nat -> (t < list_sum times)%nat -> (a < list_sum ants)%nat -> (c < list_sum chans)%nat ->
  dask_transform_sources src times ants chans [2%nat] lm pangles perr scaling freq g i s t a c =
  do! o <- transform_sources (list_sum src) (list_sum times) (list_sum times) (list_sum ants) (list_sum chans) (list_sum chans) (list_sum ants)
             lm pangles perr scaling freq g'; Ok (o i s t a c).
Proof. exact dask_transform_eq. Qed.

(* A component dimension (l,m), (u,v,w) or (emaj,emin,angle) that is cut raises ValueError in every element. *)
Theorem C90_components : forall src rows chans lmc uvwc spc lm uvw freq conv sp g s r f,
  (s < list_sum src)%nat -> (r < list_sum rows)%nat -> (f < list_sum chans)%nat ->
  lmc <> [] -> uvwc <> [] -> spc <> [] ->
  (hd O lmc <> 2%nat \/ hd O uvwc <> 3%nat -> dask_phase_delay src rows chans lmc uvwc lm uvw freq conv s r f = Raise ValueError) /\
  (hd O uvwc <> 3%nat \/ hd O spc <> 3%nat -> dask_gaussian src rows chans uvwc spc uvw freq sp g s r f = Raise ValueError).
Proof. intros. split; intros; [eapply dask_phase_comp|eapply dask_gaussian_comp]; eauto. Qed.
Theorem C90_components_transform : forall src times ants chans lmc lm pangles perr scaling freq g i s t a c,
  (s < list_sum src)%nat -> (t < list_sum times)%nat -> (a < list_sum ants)%nat -> (c < list_sum chans)%nat ->
  lmc <> [] -> hd O lmc <> 2%nat ->
  dask_transform_sources src times ants chans lmc lm pangles perr scaling freq g i s t a c = Raise ValueError.
Proof. exact dask_transform_comp. Qed.

(* Angles of any number of dimensions, each cut in any way.  The data type is checked first; then the result, or the
   exception, is that of the whole array.  An array without dimensions is rejected by both. *)
Theorem C90_feed : forall chunks pa fl ft g g' idx i j, inside idx (map list_sum chunks) -> (i < 2)%nat -> (j < 2)%nat ->
  dask_feed_rotation chunks pa fl ft g idx i j =
  if negb fl then Raise ValueError else do! o <- nd_feed_rotation (map list_sum chunks) pa fl ft g'; Ok (o idx i j).
Proof. exact dask_feed_eq. Qed.
(* Flattening and reshaping keep each angle with its matrix. *)
Theorem C90_feed_value : forall shape pa ft g idx i j, shape <> [] -> inside idx shape -> (i < 2)%nat -> (j < 2)%nat ->
  (do! o <- nd_feed_rotation shape pa true ft g; Ok (o idx i j)) =
  match feed_matrix ft (pa idx) i j with Some v => Ok v | None => Raise ValueError end.
Proof. exact nd_feed_value. Qed.

(* Parallactic angles: whatever the thread's measures server was last told, and however times and antennas are chunked, the
   result is that of the whole arrays, with the coordinates and the field centre of the first chunk. *)
Theorem C90_parangles : forall posangle astropy alone timec ants ncomp xyz nfc fcc times positions fc backend sv sv' t a,
  per_element astropy alone -> (t < list_sum timec)%nat -> (a < list_sum ants)%nat ->
  dask_parallactic_angles posangle astropy timec ants (ncomp :: xyz) (nfc :: fcc) times positions fc backend sv t a =
  do! o <- np_parallactic_angles posangle astropy (list_sum timec) times (list_sum ants) ncomp positions nfc fc backend sv'; Ok (o t a).
Proof. intros. eapply dask_parangles_eq; eauto. Qed.
(* A field centre that is cut raises ValueError. *)
Theorem C90_field_centre : forall posangle astropy timec ants xyz fcc times positions fc backend sv t a,
  (t < list_sum timec)%nat -> (a < list_sum ants)%nat -> xyz <> [] -> fcc <> [] -> hd O fcc <> 2%nat ->
  dask_parallactic_angles posangle astropy timec ants xyz fcc times positions fc backend sv t a = Raise ValueError.
Proof. exact dask_parangles_fc. Qed.
(* Antenna coordinates that are cut lose their later components without an error. *)
Theorem C90_positions_refuted : forall posangle astropy sv, exists times positions fc,
  (exists whole, np_parallactic_angles posangle astropy 1 times 1 3 positions 2 fc "test" sv = Ok whole /\ whole O O = 3) /\
  dask_parallactic_angles posangle astropy [1%nat] [1%nat] [2%nat; 1%nat] [2%nat] times positions fc "test" sv O O = Ok 2.
Proof. exact positions_dropped. Qed.

(* casacore: every angle is measured at its own time and its own antenna, whatever the server was told before. *)
Theorem C90_casa : forall posangle ntime times nant ncomp positions fc sv,
  fst (casa_parallactic_angles posangle ntime times nant ncomp positions fc sv) =
  map (fun t => map (fun a => posangle (Some (times t)) (Some (map (positions a) (seq 0 ncomp))) (fc 0%nat, fc 1%nat)) (seq 0 nant)) (seq 0 ntime).
Proof. exact casa_value. Qed.

(* WSClean spectra, coefficients in one chunk: the values are those of the whole arrays. *)
Theorem C90_spectra : forall src chans nk I coeffs lp rf freq g g' whole,
  lp_fits (list_sum src) lp ->
  spectra (list_sum src) (list_sum src) (list_sum src) (list_sum chans) nk I coeffs lp rf freq g' = Ok whole ->
  forall s f, (s < list_sum src)%nat -> (f < list_sum chans)%nat ->
  dask_spectra src chans [nk] I coeffs lp rf freq g s f = Ok (whole s f).
Proof. intros. eapply dask_spectra_eq; eauto. Qed.
(* If the whole arrays are rejected then so is some source, in every channel. *)
Theorem C90_spectra_raises : forall src chans nk I coeffs lp rf freq g g' e,
  lp_fits (list_sum src) lp -> (0 < list_sum chans)%nat ->
  spectra (list_sum src) (list_sum src) (list_sum src) (list_sum chans) nk I coeffs lp rf freq g' = Raise e ->
  exists s, (s < list_sum src)%nat /\ forall f, (f < list_sum chans)%nat -> dask_spectra src chans [nk] I coeffs lp rf freq g s f = Raise e.
Proof. intros. eapply dask_spectra_raises; eauto. Qed.
(* Coefficients in several chunks: only those of the first chunk are used ... *)
Theorem C90_spectra_first : forall src chans nk more I coeffs lp rf freq g g' whole,
  lp_fits (list_sum src) lp ->
  spectra (list_sum src) (list_sum src) (list_sum src) (list_sum chans) nk I coeffs lp rf freq g' = Ok whole ->
  forall s f, (s < list_sum src)%nat -> (f < list_sum chans)%nat ->
  dask_spectra src chans (nk :: more) I coeffs lp rf freq g s f = Ok (whole s f).
Proof. exact dask_spectra_eq. Qed.
(* ... so the result is wrong, without an error. *)
Theorem C90_spi_chunks_refuted : exists I coeffs rf freq g,
  (exists whole, spectra 1 1 1 1 2 I coeffs (LScalar false) rf freq g = Ok whole /\ whole O O = 3) /\
  dask_spectra [1%nat] [1%nat] [1%nat; 1%nat] I coeffs (LScalar false) rf freq g O O = Ok 2.
Proof. exact spi_dropped. Qed.

(* The jax phase delay is the compiled one with the default convention. *)
Theorem C90_jax : forall nsrc nrow nchan lm uvw freq, exists k, phase_delay nsrc nrow nchan lm uvw freq "fourier" = Ok k /\
  forall s r f, (s < nsrc)%nat -> (r < nrow)%nat -> (f < nchan)%nat -> jax_phase_delay lm uvw freq s r f = k s r f.
Proof. exact jax_fourier. Qed.

Print Assumptions C90_phase_delay.
Print Assumptions C90_gaussian.
Print Assumptions C90_transform.
Print Assumptions C90_components.
Print Assumptions C90_components_transform.
Print Assumptions C90_feed.
Print Assumptions C90_feed_value.
Print Assumptions C90_parangles.
Print Assumptions C90_field_centre.
Print Assumptions C90_positions_refuted.
Print Assumptions C90_casa.
Print Assumptions C90_spectra.
Print Assumptions C90_spectra_raises.
Print Assumptions C90_spectra_first.
Print Assumptions C90_spi_chunks_refuted.
Print Assumptions C90_jax.
(* a single angle without dimensions is refused *)
Theorem C90_feed_scalar : forall pa ft g, ft = "linear"%string \/ ft = "circular"%string ->
  nd_feed_rotation [] pa true ft g = Raise TypeError.
Proof. intros pa ft g [->| ->]; reflexivity. Qed.
Print Assumptions C90_feed_scalar.

(* three sources, four rows and one channel; the last element is in the last blocks *)
Example C90_phase_case lm uvw freq : exists k, phase_delay 3 4 1 lm uvw freq "casa" = Ok k /\
  dask_phase_delay [1; 2]%nat [2; 2]%nat [1]%nat [2]%nat [3]%nat lm uvw freq "casa" 2 3 0 = Ok (k 2%nat 3%nat 0%nat).
Proof.
  destruct (phase_delay 3 4 1 lm uvw freq "casa") as [k|e] eqn:E; [|discriminate]. exists k. split; auto.
  rewrite C90_phase_delay by (cbn; lia). cbn [list_sum fold_right Nat.add]. rewrite E. reflexivity.
Qed.
Example C90_cut_case lm uvw freq : dask_phase_delay [1; 2]%nat [2; 2]%nat [1]%nat [1; 1]%nat [3]%nat lm uvw freq "casa" 2 3 0 = Raise ValueError.
Proof. apply (C90_components [1; 2]%nat [2; 2]%nat [1]%nat [1; 1]%nat [3]%nat [3]%nat lm uvw freq "casa" lm (fun _ _ _ => 0)); cbn; try lia; try discriminate. Qed.
(* a 3 by 4 array of angles in chunks (1, 2) and (3, 1) *)
Example C90_feed_case pa g : dask_feed_rotation [[1; 2]; [3; 1]]%nat pa true "linear" g [2; 3]%nat 1 0 = Ok ((- sin (pa [2; 3]%nat), 0) : RC).
Proof.
  rewrite (C90_feed _ _ _ _ _ g); [|repeat constructor; cbn; lia|lia|lia]. cbn [negb].
  rewrite C90_feed_value; [reflexivity|discriminate|repeat constructor; cbn; lia|lia|lia].
Qed.
Example C90_alone : per_element (fun _ times _ _ positions fc => Ok (fun t a => times t + fc 1%nat)) (fun t _ c => t + snd c).
Proof. intros nt times na nc pos fc. eexists. split; reflexivity. Qed.
Example C90_spectra_case : exists whole, spectra 3 3 3 2 1 (fun _ => 1) (fun s _ => INR s) (LScalar false) (fun _ => 1) (fun f => INR f) (fun _ _ => 0) = Ok whole /\
  dask_spectra [2; 1]%nat [1; 1]%nat [1]%nat (fun _ => 1) (fun s _ => INR s) (LScalar false) (fun _ => 1) (fun f => INR f) (fun _ _ => 0) 2 1 = Ok (whole 2%nat 1%nat).
Proof. eexists. split; [reflexivity|]. apply (C90_spectra [2; 1]%nat [1; 1]%nat 1 _ _ _ _ _ _ (fun _ _ => 0)); cbn; auto; lia. Qed.
