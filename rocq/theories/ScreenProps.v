(* C105: the scripts that simulate data with phase screens over the antennas, or with gains from a file, and the inputs
   of the calibration of that data.  Times are exact; upc is the number of unique times per chunk. *)
From Coq Require Import Reals Lra.
From Verif Require Import Prelude CRing CField CplxR CplxF PredictModel PredictSpec AvgModel AvgSpec CalModel CalSpec CoordSpec ApplyGainsModel ApplyGainsSpec ScreenModel ScreenSpec ScreenProofs.
Open Scope R_scope.

(* Every correlation of every row is the sum over the sources of flux / n with the phase of the path difference and the
   difference of the screens of its two antennas at the time of the row; the cross hands of four correlations are zero.
   The gains that are returned are those screens. *)
Theorem C105_simulated : forall nrow time upc nant ant1 ant2 nchan ncorr uvw freq pc sky alphas us top,
  (0 < nrow)%nat -> (0 < upc)%nat -> sorted_times nrow time -> distinct_times nrow time us -> good_corr ncorr ->
  sky <> [] -> in_front pc sky -> positive nchan freq -> is_top nchan freq top ->
  exists out g, simulate nrow time upc nant ant1 ant2 nchan nchan ncorr uvw freq pc sky alphas = Ok (out, g) /\
    j_ndim g = 5%nat /\ j_tim g = length us /\ j_dir g = length sky /\
    (forall t p f d k, (f < nchan)%nat -> (d < length sky)%nat ->
      j_at g t p f d k 0%nat = (cis (screen_phase pc (nth d sky no_source) (fun i => alphas t p i k) top (freq f)) : RCF)) /\
    (forall r f c t, (r < nrow)%nat -> (f < nchan)%nat -> (c < ncorr)%nat -> (t < length us)%nat -> nth t us 0%Z = time r ->
      out r f c = match hand ncorr c with Some k => screened pc sky alphas top ant1 ant2 uvw freq t r f k | None => (c0 : RC) end).
Proof. exact simulate_main. Qed.
(* The number of times per chunk does not matter. *)
Theorem C105_chunks_irrelevant : forall nrow time upc upc' nant ant1 ant2 nchan ncorr uvw freq pc sky alphas us top,
  (0 < nrow)%nat -> (0 < upc)%nat -> (0 < upc')%nat -> sorted_times nrow time -> distinct_times nrow time us -> good_corr ncorr ->
  sky <> [] -> in_front pc sky -> positive nchan freq -> is_top nchan freq top ->
  exists out out' g g', simulate nrow time upc nant ant1 ant2 nchan nchan ncorr uvw freq pc sky alphas = Ok (out, g) /\
    simulate nrow time upc' nant ant1 ant2 nchan nchan ncorr uvw freq pc sky alphas = Ok (out', g') /\
    forall r f c, (r < nrow)%nat -> (f < nchan)%nat -> (c < ncorr)%nat -> out r f c = out' r f c.
Proof. exact simulate_chunks. Qed.
(* Invalid input is refused: no times per chunk, other numbers of correlations, frequencies that do not match the
   flags, an empty sky. *)
Theorem C105_refused : forall nrow time upc nant ant1 ant2 nflag nchan ncorr uvw freq pc sky alphas,
  (upc = 0%nat -> simulate nrow time upc nant ant1 ant2 nflag nchan ncorr uvw freq pc sky alphas = Raise ValueError) /\
  ((0 < upc)%nat ->
    (~ good_corr ncorr -> simulate nrow time upc nant ant1 ant2 nflag nchan ncorr uvw freq pc sky alphas = Raise RuntimeError) /\
    (good_corr ncorr -> nchan <> nflag -> simulate nrow time upc nant ant1 ant2 nflag nchan ncorr uvw freq pc sky alphas = Raise AssertionError) /\
    (good_corr ncorr -> nchan = nflag -> sky = [] -> simulate nrow time upc nant ant1 ant2 nflag nchan ncorr uvw freq pc sky alphas = Raise TypeError)).
Proof. exact simulate_refuses_all. Qed.
(* What the calibration has to explain at the true gains: its model lacks the division by n, so the residual of an
   unflagged row is the sum over the sources of flux (1/n - 1) with the phases of the data. *)
Theorem C105_residual_at_true_gains : forall nrow time upc nant ant1 ant2 nchan uvw freq pc sky alphas us top,
  (0 < nrow)%nat -> (0 < upc)%nat -> sorted_times nrow time -> distinct_times nrow time us ->
  sky <> [] -> in_front pc sky -> positive nchan freq -> is_top nchan freq top -> forall flag,
  exists out g idx cnts v m tbi' res,
    simulate nrow time upc nant ant1 ant2 nchan nchan 4 uvw freq pc sky alphas = Ok (out, g) /\
    calibration_inputs nrow time upc nchan 4 out uvw freq pc sky = Ok (idx, cnts, v, m) /\
    residual_vis (length idx) (fun t => Z.of_nat (nth t idx 0%nat)) (fun t => nth t cnts 0%nat) ant1 ant2 g v flag m = Ok (tbi', res) /\
    forall r f k t, (r < nrow)%nat -> (f < nchan)%nat -> (k < 2)%nat -> (t < length us)%nat -> nth t us 0%Z = time r ->
      (forall c, (c < 2)%nat -> flag r f c 0%nat = false) ->
      v_at res r f k 0%nat = (left_over pc sky alphas top ant1 ant2 uvw freq t r f k : RCF).
Proof. exact calibrate_residual. Qed.
(* Hence with all sources in the phase centre the true gains explain the data exactly, ... *)
Theorem C105_centre_explained : forall nrow time upc nant ant1 ant2 nchan uvw freq pc sky alphas us top,
  (0 < nrow)%nat -> (0 < upc)%nat -> sorted_times nrow time -> distinct_times nrow time us ->
  sky <> [] -> (forall s, In s sky -> cos_n pc s = 1) -> positive nchan freq -> is_top nchan freq top -> forall flag,
  exists out g idx cnts v m tbi' res,
    simulate nrow time upc nant ant1 ant2 nchan nchan 4 uvw freq pc sky alphas = Ok (out, g) /\
    calibration_inputs nrow time upc nchan 4 out uvw freq pc sky = Ok (idx, cnts, v, m) /\
    residual_vis (length idx) (fun t => Z.of_nat (nth t idx 0%nat)) (fun t => nth t cnts 0%nat) ant1 ant2 g v flag m = Ok (tbi', res) /\
    forall r f k, (r < nrow)%nat -> (f < nchan)%nat -> (k < 2)%nat -> (forall c, (c < 2)%nat -> flag r f c 0%nat = false) ->
      v_at res r f k 0%nat = (c0 : RCF).
Proof. exact calibrate_centre. Qed.
(* ... and with a single source elsewhere they leave the modulus |flux (1/n - 1)| in every unflagged row. *)
Theorem C105_single_source_unexplained : forall nrow time upc nant ant1 ant2 nchan uvw freq pc s alphas us top,
  (0 < nrow)%nat -> (0 < upc)%nat -> sorted_times nrow time -> distinct_times nrow time us ->
  0 < cos_n pc s -> positive nchan freq -> is_top nchan freq top -> forall flag,
  exists out g idx cnts v m tbi' res,
    simulate nrow time upc nant ant1 ant2 nchan nchan 4 uvw freq pc [s] alphas = Ok (out, g) /\
    calibration_inputs nrow time upc nchan 4 out uvw freq pc [s] = Ok (idx, cnts, v, m) /\
    residual_vis (length idx) (fun t => Z.of_nat (nth t idx 0%nat)) (fun t => nth t cnts 0%nat) ant1 ant2 g v flag m = Ok (tbi', res) /\
    forall r f k, (r < nrow)%nat -> (f < nchan)%nat -> (k < 2)%nat -> (forall c, (c < 2)%nat -> flag r f c 0%nat = false) ->
      norm2 (v_at res r f k 0%nat) = (flux_at s (freq f) * (1 / cos_n pc s - 1)) ^ 2.
Proof. exact calibrate_single. Qed.
(* The true gains need not explain the data: a witness with one source 60 degrees from the centre. *)
Theorem C105_true_gains_explain_refuted : exists nrow time upc nant ant1 ant2 nchan uvw freq pc sky alphas us top,
  (0 < nrow)%nat /\ (0 < upc)%nat /\ sorted_times nrow time /\ distinct_times nrow time us /\
  sky <> [] /\ in_front pc sky /\ positive nchan freq /\ is_top nchan freq top /\
  exists out g idx cnts v m tbi' res,
    simulate nrow time upc nant ant1 ant2 nchan nchan 4 uvw freq pc sky alphas = Ok (out, g) /\
    calibration_inputs nrow time upc nchan 4 out uvw freq pc sky = Ok (idx, cnts, v, m) /\
    residual_vis (length idx) (fun t => Z.of_nat (nth t idx 0%nat)) (fun t => nth t cnts 0%nat) ant1 ant2 g v (fun _ _ _ _ => false) m = Ok (tbi', res) /\
    norm2 (v_at res 0%nat 0%nat 0%nat 0%nat) = 1.
Proof. exact calibrate_refuted. Qed.
(* With one or two correlations the simulation succeeds and the calibration of its data raises an IndexError. *)
Theorem C105_calibration_needs_four : forall nrow time upc nant ant1 ant2 nchan ncorr uvw freq pc sky alphas us top,
  (0 < nrow)%nat -> (0 < upc)%nat -> sorted_times nrow time -> distinct_times nrow time us -> ncorr = 1%nat \/ ncorr = 2%nat ->
  sky <> [] -> in_front pc sky -> positive nchan freq -> is_top nchan freq top ->
  exists out g, simulate nrow time upc nant ant1 ant2 nchan nchan ncorr uvw freq pc sky alphas = Ok (out, g) /\
    calibration_inputs nrow time upc nchan ncorr out uvw freq pc sky = Raise IndexError.
Proof. exact calibrate_needs_four. Qed.
(* The script with gains from a file: the single correlation of a row is the sum over the sources of
   g_p flux / n exp(-i path) conj g_q with the gains of the time of the row. *)
Theorem C105_gains_from_file : forall nrow time upc nant ant1 ant2 nchan uvw freq pc sky (g : gain_arr RCF) us,
  (0 < nrow)%nat -> (0 < upc)%nat -> sorted_times nrow time -> distinct_times nrow time us -> sky <> [] -> in_front pc sky -> all_spectra sky ->
  j_ndim g = 5%nat -> j_tim g = length us ->
  exists out, apply_to_sources nrow time upc nant ant1 ant2 nchan uvw freq 1%nat pc sky g = Ok out /\
    forall r f t, (r < nrow)%nat -> (f < nchan)%nat -> (t < length us)%nat -> nth t us 0%Z = time r ->
      out r f 0%nat = (gained pc sky ant1 ant2 uvw freq g t r f 0%nat : RCF).
Proof. exact varying_main. Qed.
(* It refuses several fields, sources without spectrum, gains with another number of dimensions, and gains for
   another number of chunks of times (unless all are in one chunk). *)
Theorem C105_gains_from_file_refused : forall nrow time upc nant ant1 ant2 nchan uvw freq pc sky (g : gain_arr RCF) us nfield, (0 < upc)%nat ->
  (nfield <> 1%nat -> apply_to_sources nrow time upc nant ant1 ant2 nchan uvw freq nfield pc sky g = Raise ValueError) /\
  (nfield = 1%nat -> ~ all_spectra sky -> apply_to_sources nrow time upc nant ant1 ant2 nchan uvw freq nfield pc sky g = Raise AttributeErrorExn) /\
  (nfield = 1%nat -> all_spectra sky -> sky <> [] -> (j_ndim g < 4)%nat -> apply_to_sources nrow time upc nant ant1 ant2 nchan uvw freq nfield pc sky g = Raise IndexError) /\
  (nfield = 1%nat -> all_spectra sky -> sky <> [] -> (4 <= j_ndim g)%nat -> j_ndim g <> 5%nat -> apply_to_sources nrow time upc nant ant1 ant2 nchan uvw freq nfield pc sky g = Raise RuntimeError) /\
  (nfield = 1%nat -> all_spectra sky -> sky <> [] -> j_ndim g = 5%nat -> distinct_times nrow time us ->
    (exists c, ~ (c * upc < j_tim g <-> c * upc < length us)%nat) -> (j_tim g = 0 \/ upc < j_tim g)%nat ->
    apply_to_sources nrow time upc nant ant1 ant2 nchan uvw freq nfield pc sky g = Raise ValueError).
Proof. exact varying_refuses. Qed.

(* ---------- non-vacuity ---------- *)
(* two times, three rows, one source in the centre and one 60 degrees away with a spectrum, two channels *)
Example ex_times : sorted_times 3 (fun r => match r with 2%nat => 5%Z | _ => 3%Z end) /\ distinct_times 3 (fun r => match r with 2%nat => 5%Z | _ => 3%Z end) [3; 5]%Z.
Proof.
  split; [intros [|[|[|]]] [|[|[|]]] A B; lia|]. split; [repeat constructor; lia|]. intros x. cbn. split.
  - intros [<-|[<-|[]]]; [exists 0%nat|exists 2%nat]; split; auto; lia.
  - intros (r & R & <-). destruct r as [|[|[|]]]; auto; lia.
Qed.
Example ex_sky : let sky := [{| s_ra := 0; s_dec := 0; s_flux := 2; s_spec := None |}; {| s_ra := PI / 3; s_dec := 0; s_flux := 1; s_spec := Some (-1, 2) |}] in
  in_front (0, 0) sky /\ positive 2 (fun f => INR (S f)) /\ is_top 2 (fun f => INR (S f)) 2 /\
  flux_at (nth 0 sky no_source) 1 = 2 /\ cos_n (0, 0) (nth 1 sky no_source) = 1 / 2.
Proof.
  assert (C : cos_n (0, 0) {| s_ra := PI / 3; s_dec := 0; s_flux := 1; s_spec := Some (-1, 2) |} = 1 / 2).
  { unfold cos_n, dot, direction. cbn [s_ra s_dec fst snd]. rewrite cos_PI3, cos_0, sin_0. field. }
  split; [|split; [|split; [|split; [reflexivity|exact C]]]].
  - intros s [<-|[<-|[]]]; [|rewrite C; lra]. unfold cos_n, dot, direction. cbn [s_ra s_dec fst snd]. rewrite cos_0, sin_0. lra.
  - intros f _. apply lt_0_INR. lia.
  - split; [exists 1%nat; split; [lia|cbn; lra]|]. intros [|[|f]] F; [cbn; lra|cbn; lra|lia].
Qed.
Example ex_hands : map (hand 4) [0; 1; 2; 3]%nat = [Some 0; None; None; Some 1]%nat /\ map (hand 2) [0; 1]%nat = [Some 0; Some 1]%nat.
Proof. split; reflexivity. Qed.

Print Assumptions C105_simulated.
Print Assumptions C105_chunks_irrelevant.
Print Assumptions C105_refused.
Print Assumptions C105_residual_at_true_gains.
Print Assumptions C105_centre_explained.
Print Assumptions C105_single_source_unexplained.
Print Assumptions C105_true_gains_explain_refuted.
Print Assumptions C105_calibration_needs_four.
Print Assumptions C105_gains_from_file.
Print Assumptions C105_gains_from_file_refused.
(* What the calibration is given: two correlations of every row and channel, a model of each source for them, and one bin for each time. *)
Theorem C105_calibration_shapes : forall nrow time upc nchan ncorr data uvw freq pc sky idx cnts v m,
  calibration_inputs nrow time upc nchan ncorr data uvw freq pc sky = Ok (idx, cnts, v, m) ->
  (v_ndim v, v_row v, v_chan v, v_corr v) = (3, nrow, nchan, 2)%nat /\
  (m_ndim m, m_row m, m_chan m, m_dir m, m_corr m) = (4, nrow, nchan, length sky, 2)%nat /\ (4 <= ncorr)%nat /\
  forall r f, v_at v r f 0%nat 0%nat = data r f 0%nat /\ v_at v r f 1%nat 0%nat = data r f 3%nat.
Proof.
  intros nrow time upc nchan ncorr data uvw freq pc sky idx cnts v m. unfold calibration_inputs.
  destruct (chunkify_rows nrow time upc) as [[[rows i] c]|]; [|discriminate]. cbn [bind]. unfold take_diagonal, calibration_model.
  destruct (Nat.leb_spec ncorr 3); [discriminate|]. cbn [bind]. destruct (script_lm sky pc); [|discriminate]. cbn [bind].
  intros E. injection E as <- <- <- <-. cbn. repeat split; lia.
Qed.
Print Assumptions C105_calibration_shapes.
