(* The spectral index fitter: africanus/model/spi/examples/simple_spi_fitter.py:253-482 (main and the lines below it).
   Arithmetic is over the reals.  Header cards are fields of a record: all the cards that main reads from the model image are present,
   those of the residual image may be missing.  Printing and warnings are left out. *)
From Coq Require Import Reals.
From Coq Require Import String Ascii.
From Verif Require Import Prelude CRing CplxR DaskPredictModel ApplyGainsModel SpiModel FftFacts RestoreModel.
Open Scope list_scope.
Open Scope R_scope.

(* the cards of the model image, lines 269-311 *)
Record fits_hdr := { cunit1 : string; cunit2 : string; ctype3 : string; ctype4 : string;
  naxis1 : nat; naxis2 : nat; naxis3 : nat; naxis4 : nat;
  crpix1 : R; crpix2 : R; crpix3 : R; crpix4 : R; cdelt1 : R; cdelt2 : R; cdelt3 : R; cdelt4 : R; crval3 : R; crval4 : R }.
(* the residual image: the beam in its header (None: a card is missing), the names of the cards it has, and the data, of the shape of
   the model *)
Record residual := { r_beam : option (R * R * R); r_cards : string -> bool; r_data : arr3 R }.
(* the parsed arguments, lines 205-251; [o_threads] is multiprocessing.cpu_count().  fitsmodel and its data are passed separately *)
Record options := { o_fitsmodel : string; o_outfile : option string; o_beampars : option (list R); o_threshold : R; o_ncpu : nat;
  o_threads : nat; o_output : string; o_padding : R }.
(* number of threads, lines 473-479 *)
Definition threads (o : options) : nat := if Nat.eqb (o_ncpu o) 0 then o_threads o else o_ncpu o.

Definition is_degrees (u : string) : bool := (String.eqb u "DEG" || String.eqb u "deg")%bool.
(* lines 291-311: axis number, bands, reference pixel, step and reference frequency; images with more than one correlation are refused *)
Definition freq_axis (h : fits_hdr) : res (nat * nat * R * R * R) :=
  do! (ax, ncorr) <- (if String.eqb (ctype4 h) "FREQ" then Ok ((4%nat, naxis4 h, crpix4 h, cdelt4 h, crval4 h), naxis3 h)
                      else if String.eqb (ctype3 h) "FREQ" then Ok ((3%nat, naxis3 h, crpix3 h, cdelt3 h, crval3 h), naxis4 h)
                      else Raise ValueError);
  if Nat.ltb 1 ncorr then Raise ValueError else Ok ax.
(* np.arange(1 - ref, 1 + n - ref) * d, lines 276, 284, 313-314 *)
Definition axis_coord (ref d : R) (j : nat) : R := (INR j + 1 - ref) * d.

Notation rsum := (csum (K := RR)).
(* np.std of bands b0 .. b0 + nb - 1 of an (.., n1, n2) cube, lines 331-332 *)
Definition cube_mean (b0 nb n1 n2 : nat) (x : arr3 R) : R :=
  rsum nb (fun b => rsum n1 (fun i => rsum n2 (fun j => x (b0 + b)%nat i j))) / (INR nb * INR n1 * INR n2).
Definition cube_std (b0 nb n1 n2 : nat) (x : arr3 R) : R :=
  sqrt (rsum nb (fun b => rsum n1 (fun i => rsum n2 (fun j => Rsqr (x (b0 + b)%nat i j - cube_mean b0 nb n1 n2 x)))) / (INR nb * INR n1 * INR n2)).
(* np.amin over the bands, line 348 *)
Definition band_min (nb : nat) (x : arr R) : R := for_ (nb - 1) (fun b m => Rmin m (x (S b))) (x O).
(* np.argwhere(minimage > threshold), line 349, in row order *)
Definition mask (nb : nat) (c : cube) (threshold : R) : list (nat * nat) :=
  flat_map (fun i => map (pair i) (filter (fun j => if Rlt_dec threshold (band_min nb (fun b => cu_at c b i j)) then true else false) (seq 0 (cu_2 c)))) (seq 0 (cu_1 c)).
(* lines 366-371: weights from the rms in each band, scaled to a maximum of one *)
Definition raw_weight (rms : arr R) (b : nat) : R := if Rlt_dec 0 (rms b) then 1 / (rms b * rms b) else 0.
Definition band_weights (nb : nat) (rms : arr R) (b : nat) : R :=
  raw_weight rms b / for_ (nb - 1) (fun b m => Rmax m (raw_weight rms (S b))) (raw_weight rms O).
(* np.zeros([d1, d2]) and the assignment at the mask, lines 388-391 *)
Definition scatter (d1 d2 : nat) (where_ : list (nat * nat)) (vals : list R) : res (arr2 R) :=
  if forallb (fun p => Nat.ltb (fst p) d1 && Nat.ltb (snd p) d2)%bool where_
  then Ok (fold_left (fun m pv => upd2 m (fst (fst pv)) (snd (fst pv)) (snd pv)) (combine where_ vals) (fun _ _ => 0))
  else Raise IndexError.

(* what is written: a cube with its frequency axis third or fourth, or a plane, with their shapes *)
Inductive product : Type :=
| Cube (axis nb d1 d2 : nat) (at_ : arr3 R)
| Plane (d1 d2 : nat) (at_ : arr2 R).
(* where it is written, lines 394-404: up to the last slash of the model's name *)
Fixpoint find (c : ascii) (l : list ascii) (k : nat) : option nat := match l with [] => None | x :: r => if Ascii.eqb x c then Some k else find c r (S k) end.
Definition prefix (o : options) : string :=
  match o_outfile o with
  | Some f => f
  | None => let s := list_ascii_of_string (o_fitsmodel o) in
            match find "/"%char (rev s) 0 with
            | None => "image-"%string
            | Some idx => string_of_list_ascii (firstn (if Nat.eqb idx 0 then 0 else List.length s - idx)%nat s)
            end
  end.
Definition asked (c : ascii) (o : options) : bool := existsb (Ascii.eqb c) (list_ascii_of_string (o_output o)).
(* lines 430-436 *)
Definition hdr_keys : list string :=
  ["SIMPLE"; "BITPIX"; "NAXIS"; "NAXIS1"; "NAXIS2"; "NAXIS3"; "NAXIS4"; "BUNIT"; "BMAJ"; "BMIN"; "BPA"; "EQUINOX"; "BTYPE"; "TELESCOP"; "OBSERVER"; "OBJECT"; "ORIGIN";
   "CTYPE1"; "CTYPE2"; "CTYPE3"; "CTYPE4"; "CRPIX1"; "CRPIX2"; "CRPIX3"; "CRPIX4"; "CRVAL1"; "CRVAL2"; "CRVAL3"; "CRVAL4"; "CDELT1"; "CDELT2"; "CDELT3"; "CDELT4";
   "CUNIT1"; "CUNIT2"; "CUNIT3"; "CUNIT4"; "SPECSYS"; "DATE-OBS"]%string.

(* everything up to the maps, lines 255-391 *)
Record fitted_maps := { f_axis : nat; f_nband : nat; f_freqs : arr R; f_ref : R; f_kern : arr2 R; f_mask : list (nat * nat); f_beam : option (arr2 R);
  f_alpha : arr2 R; f_i0 : arr2 R }.
(* [pocket] and [fast] as in RestoreModel.v; [interp] is interpolate_beam with the arguments that do not change, None without --beammodel *)
Definition spi_fit (pocket : bool) (fast : option (nat -> nat)) (o : options) (resid : option residual) (h : fits_hdr) (model : arr3 R)
    (interp : option (list (nat * nat) -> arr R -> res (arr2 R))) : res fitted_maps :=
  match resid with
  | None => Raise ValueError                                      (* line 255: fits.getheader(None) *)
  | Some rd =>
  do! beampars <- match o_beampars o with                         (* lines 256-265 *)
                  | None => match r_beam rd with None => Raise KeyError | Some b => Ok b end
                  | Some [emaj; emin; pa] => Ok (emaj, emin, pa)
                  | Some _ => Raise TypeError
                  end;
  if negb (is_degrees (cunit1 h)) then Raise ValueError else      (* lines 272-273 *)
  if negb (is_degrees (cunit2 h)) then Raise ValueError else      (* lines 279-280 *)
  let npix_l := naxis1 h in
  let npix_m := naxis2 h in
  do! (ax, nband, refpix_nu, delta_nu, ref_freq) <- freq_axis h;
  let freqs b := ref_freq + axis_coord refpix_nu delta_nu b in
  let '(emaj, emin, pa) := beampars in
  do! gausskern <- Gaussian2D npix_m npix_l (fun _ j => axis_coord (crpix1 h) (cdelt1 h) j) (fun i _ => axis_coord (crpix2 h) (cdelt2 h) i) emaj emin pa;
  if Nat.eqb nband 1 then Raise ValueError else                   (* line 78: a squeezed band axis *)
  let conv := convolve_model pocket fast (o_padding o) npix_m npix_l model gausskern in
  let rms := cube_std 0 nband npix_m npix_l (r_data rd) in
  let rms_cube b := cube_std b 1 npix_m npix_l (r_data rd) in
  let threshold := o_threshold o * rms in
  let maskindices := mask nband conv threshold in
  match maskindices with
  | [] => Raise ValueError                                        (* lines 350-353 *)
  | _ =>
  let cut c b := cu_at conv b (fst (nth c maskindices (0, 0)%nat)) (snd (nth c maskindices (0, 0)%nat)) in
  do! beam <- match interp with None => Ok None | Some f => do! b <- f maskindices freqs; Ok (Some b) end;
  let fitcube c b := match beam with None => cut c b | Some bs => cut c b / bs c b end in
  let weights := band_weights nband rms_cube in
  let ncomps := List.length maskindices in
  let size := Nat.div ncomps (threads o) in
  if Nat.eqb size 0 then Raise ZeroDivision else                  (* line 378: dask divides by the size of a chunk *)
  do! vals <- mapM (fun c =>
      do! a <- dask_fit (chunk_sizes ncomps size) [nband] Float64 fitcube weights freqs ref_freq None None None (1 / 10 ^ 5) 100 0 c;
      do! i <- dask_fit (chunk_sizes ncomps size) [nband] Float64 fitcube weights freqs ref_freq None None None (1 / 10 ^ 5) 100 2 c;
      Ok (a, i)) (seq 0 ncomps);
  do! alphamap <- scatter npix_l npix_m maskindices (map fst vals);
  do! i0map <- scatter npix_l npix_m maskindices (map snd vals);
  Ok {| f_axis := ax; f_nband := nband; f_freqs := freqs; f_ref := ref_freq; f_kern := gausskern; f_mask := maskindices; f_beam := beam;
        f_alpha := alphamap; f_i0 := i0map |}
  end
  end.
(* position of a pixel in the mask *)
Fixpoint place (p : nat * nat) (l : list (nat * nat)) (k : nat) : option nat :=
  match l with [] => None | q :: r => if (Nat.eqb (fst p) (fst q) && Nat.eqb (snd p) (snd q))%bool then Some k else place p r (S k) end.
(* the whole script: the files written, in order, and how it ends (lines 406-467).  The maps are written after the cubes and only if
   the residual header has all the cards of hdr_keys *)
Definition spi_main (pocket : bool) (fast : option (nat -> nat)) (o : options) (resid : option residual) (h : fits_hdr) (model : arr3 R)
    (interp : option (list (nat * nat) -> arr R -> res (arr2 R))) : list (string * product) * option exn :=
  match spi_fit pocket fast o resid h model interp with
  | Raise e => ([], Some e)
  | Ok f =>
      let npix_l := naxis1 h in
      let npix_m := naxis2 h in
      let out := prefix o in
      let rec := if asked "I" o then [((out ++ "Irec_cube.fits")%string,
                    Cube (f_axis f) (f_nband f) npix_l npix_m (fun b i j => f_i0 f i j * Rpower (f_freqs f b / f_ref f) (f_alpha f i j)))] else [] in
      let bm := match f_beam f with
                | Some bs => if asked "b" o then [((out ++ "interpolated_beam_cube.fits")%string,
                    Cube (f_axis f) (f_nband f) npix_l npix_m (fun b i j => match place (i, j) (f_mask f) 0 with Some c => bs c b | None => 0 end))] else []
                | None => [] end in
      let cards := match resid with Some rd => forallb (r_cards rd) hdr_keys | None => false end in
      if negb cards then (rec ++ bm, Some KeyError) else
      let al := if asked "a" o then [((out ++ "alpha.fits")%string, Plane npix_l npix_m (f_alpha f))] else [] in
      let i0 := if asked "i" o then [((out ++ "I0.fits")%string, Plane npix_l npix_m (f_i0 f))] else [] in
      let cb := if asked "c" o then [((out ++ "clean-beam.fits")%string, Plane npix_m npix_l (f_kern f))] else [] in
      (rec ++ bm ++ al ++ i0 ++ cb, None)
  end.
