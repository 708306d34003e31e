(* Model of /repo/africanus/calibration/utils/examples/apply_phase_screen_to_ms.py and
   apply_gains_time_varying_sources.py over the real and complex numbers.  The measurement set has one data description
   and all rows are in one dataset; the channels are in one chunk.  Frequencies are positive.  Left out: the command
   line, the threads, the reading and writing of files, rounding, and the dtype that dask is told (that of the real
   model, although the visibilities are complex). *)
From Coq Require Import Reals String.
From Verif Require Import Prelude CRing CField CplxR CplxF PredictModel CalModel RimeModel CoordModel DftModel Cal2Model ApplyGainsModel.
Open Scope list_scope.
Open Scope nat_scope.

(* a source of the sky model: position, flux, and spectral index with reference frequency if it has a spectrum *)
Record sky_source : Type := { s_ra : R; s_dec : R; s_flux : R; s_spec : option (R * R) }.
Definition no_source : sky_source := {| s_ra := 0; s_dec := 0; s_flux := 0; s_spec := None |}.
Definition radec_of (sky : list sky_source) : arr2 R :=
  fun d i => let s := nth d sky no_source in match i with O => s_ra s | _ => s_dec s end.
(* apply_phase_screen_to_ms.py:118-119, 228-229, apply_gains_time_varying_sources.py:82-85.  The coordinates of no sources
   are a one-dimensional array, on which the compilation of "sources, components = radec.shape" fails. *)
Definition script_lm (sky : list sky_source) (pc : R * R) : res (arr2 R) :=
  match sky with [] => Raise TypeError | _ => radec_to_lm (length sky) 2 (radec_of sky) (Some pc) end.
(* apply_phase_screen_to_ms.py:114-115, 127: without spectrum the index is 0 and the reference frequency 1 *)
Definition stokes_I (s : sky_source) (nu : R) : R :=
  let '(spi, nu0) := match s_spec s with Some x => x | None => (0, 1)%R end in (s_flux s * Rpower (nu / nu0) spi)%R.

(* apply_phase_screen_to_ms.py:53: freq.max() of n > 0 frequencies *)
Fixpoint fmax (n : nat) (freq : arr R) : R := match n with O => freq 0 | S k => match k with O => freq 0 | _ => Rmax (fmax k freq) (freq k) end end.
(* apply_phase_screen_to_ms.py:41-64; alphas (time, ant, coefficient, corr) are random *)
Definition make_screen (lm : arr2 R) (nchan : nat) (freq : arr R) (ntime ndir : nat) (alphas : nat -> nat -> arr2 R) : gain_arr RCF :=
  {| j_ndim := 5; j_tim := ntime; j_chan := nchan; j_dir := ndir;
     j_at := fun t p f d c _ =>
       let screen := (1 * alphas t p 0%nat c + lm d 0%nat * alphas t p 1%nat c + lm d 1%nat * alphas t p 2%nat c)%R in
       (cis (screen / (freq f / fmax nchan freq)) : RCF) |}.
(* apply_phase_screen_to_ms.py:82-92, 122-135, 157: the model for all times *)
Definition sky_image (sky : list sky_source) (nchan : nat) (freq : arr R) (ncorr : nat) : image_arr :=
  let big := Nat.eqb ncorr 4 in
  {| i_ndim := if big then 5 else 4; i_chan := nchan; i_dir := length sky; i_corr := if big then 2 else ncorr;
     i_at := fun _ f d i j => if (big && negb (Nat.eqb i j))%bool then 0%K else (ofR (stokes_I (nth d sky no_source) (freq f)) : RCF) |}.

(* the chunked call of compute_and_corrupt_vis (apply_phase_screen_to_ms.py:147-168, apply_gains_time_varying_sources.py:87-124);
   rows, idx, cnts are the result of chunkify_rows.  As in ApplyGainsModel.v a single block of gains is repeated. *)
Definition corrupt_image (rows idx cnts : list nat) (upc nant : nat) (ant1 ant2 : arr nat) (nchan : nat) (m : image_arr) (g : gain_arr RCF)
    (uvw : arr2 R) (freq : arr R) (lm : arr3 R) : res (nat -> nat -> jones RCF) :=
  let jt := chunk_sizes (j_tim g) upc in
  let ch := {| cc_row := rows; cc_time := chunk_sizes (length idx) upc; cc_chan := [nchan]; cc_jant := [nant]; cc_jdir := [j_dir g]; cc_mdir := [i_dir m] |} in
  let g' := if (Nat.eqb (length jt) 1 && Nat.ltb 1 (length rows))%bool then broadcast_gains upc g else g in
  do! blocks <- dask_compute_and_corrupt ch nant [3] [i_dir m] [2] (fun t => Z.of_nat (nth t idx 0)) (fun t => nth t cnts 0) ant1 ant2 g' m uvw freq lm;
  if negb (Nat.eqb (length jt) (length rows) || Nat.eqb (length jt) 1)%bool then Raise ValueError else
  if existsb (fun rb => is_raise (blocks rb 0)) (seq 0 (length rows)) then Raise ValueError else
  Ok (fun r f => let '(rb, r') := locate rows r in match blocks rb 0 with Ok (_, v) => v_at v r' f | Raise _ => (fun _ _ => 0%K) end).

(* apply_phase_screen_to_ms.py:67-180 simulate, for a measurement set with one field.  nflag is flag.shape[1], nchan is
   freq.size.  The result is the output column and the gains. *)
Definition simulate (nrow : nat) (time : arr Z) (upc nant : nat) (ant1 ant2 : arr nat) (nflag nchan ncorr : nat) (uvw : arr2 R) (freq : arr R)
    (pc : R * R) (sky : list sky_source) (alphas : nat -> nat -> arr2 R) : res ((nat -> nat -> nat -> RCF) * gain_arr RCF) :=
  do! (rows, idx, cnts) <- chunkify_rows nrow time upc;
  if negb (Nat.eqb ncorr 4 || Nat.eqb ncorr 2 || Nat.eqb ncorr 1)%bool then Raise RuntimeError else
  if negb (Nat.eqb nchan nflag) then Raise AssertionError else
  do! lm <- script_lm sky pc;
  let g := make_screen lm nchan freq (length idx) (length sky) alphas in
  do! out <- corrupt_image rows idx cnts upc nant ant1 ant2 nchan (sky_image sky nchan freq ncorr) g uvw freq (fun _ => lm);
  Ok ((fun r f c => if Nat.eqb ncorr 4 then out r f (c / 2) (c mod 2) else out r f c 0), g).

(* apply_phase_screen_to_ms.py:198: data[:, :, (0, 3)] *)
Definition take_diagonal (nrow nchan ncorr : nat) (data : nat -> nat -> nat -> RCF) : res (vis_arr RCF) :=
  if Nat.leb ncorr 3 then Raise IndexError
  else Ok {| v_ndim := 3; v_row := nrow; v_chan := nchan; v_corr := 2; v_at := fun r f c _ => data r f (3 * c) |}.
(* apply_phase_screen_to_ms.py:227-240: the model visibilities that the calibration uses *)
Definition calibration_model (nrow nchan : nat) (uvw : arr2 R) (freq : arr R) (pc : R * R) (sky : list sky_source) : res (model_arr RCF) :=
  do! lm <- script_lm sky pc;
  Ok {| m_ndim := 4; m_row := nrow; m_chan := nchan; m_dir := length sky; m_corr := 2;
        m_at := fun r f d _ _ =>
          match im_to_vis nrow 1 nchan 1 (fun _ f _ => (ofR (stokes_I (nth d sky no_source) (freq f)) : RC)) uvw (fun s => lm (d + s)) freq "fourier"%string with
          | Ok V => (V r f 0 : RCF)
          | Raise _ => (0%K : RCF)
          end |}.

(* apply_phase_screen_to_ms.py:187-240: the time bins, data and model that calibrate gives to the solver *)
Definition calibration_inputs (nrow : nat) (time : arr Z) (upc nchan ncorr : nat) (data : nat -> nat -> nat -> RCF) (uvw : arr2 R) (freq : arr R)
    (pc : R * R) (sky : list sky_source) : res (list nat * list nat * vis_arr RCF * model_arr RCF) :=
  do! (_, idx, cnts) <- chunkify_rows nrow time upc;
  do! v <- take_diagonal nrow nchan ncorr data;
  do! m <- calibration_model nrow nchan uvw freq pc sky;
  Ok (idx, cnts, v, m).

(* apply_gains_time_varying_sources.py:44-127 main; nfield is the number of fields, each phase centre has two numbers.
   The gains come from a file. *)
Definition apply_to_sources (nrow : nat) (time : arr Z) (upc nant : nat) (ant1 ant2 : arr nat) (nchan : nat) (uvw : arr2 R) (freq : arr R)
    (nfield : nat) (pc : R * R) (sky : list sky_source) (g : gain_arr RCF) : res (nat -> nat -> nat -> RCF) :=
  do! (rows, idx, cnts) <- chunkify_rows nrow time upc;
  if negb (Nat.eqb nfield 1) then Raise ValueError else                                             (* line 58: reshape(1, 2) *)
  if existsb (fun s : sky_source => match s_spec s with None => true | Some _ => false end) sky then Raise AttributeErrorExn else    (* lines 78-79 *)
  do! lm <- script_lm sky pc;
  if Nat.ltb (j_ndim g) 4 then Raise IndexError else                                                (* jones.chunks[3] *)
  do! out <- corrupt_image rows idx cnts upc nant ant1 ant2 nchan (sky_image sky nchan freq 1) g uvw freq (fun _ => lm);
  Ok (fun r f c => out r f c 0).
