(* Model of /repo/africanus/dft/examples/predict_from_fits.py.  Numbers are exact. *)
From Coq Require Import Reals String.
From Verif Require Import Prelude CRing CplxR RimeModel DftModel.
Open Scope nat_scope.

(* the cards read from the header; an absent card (KeyError) is left out.  Every NAXIS is at least one. *)
Record fits_header : Type := {
  cunit1 : string; cunit2 : string; ctype3 : string; ctype4 : string;
  naxis1 : nat; naxis2 : nat; naxis3 : nat; naxis4 : nat;
  crpix1 : R; crpix2 : R; crpix3 : R; crpix4 : R;
  cdelt1 : R; cdelt2 : R; cdelt3 : R; cdelt4 : R;
  crval3 : R; crval4 : R }.
(* np.arange(1 - refpix, 1 + npix - refpix) * delta *)
Definition steps (refpix delta : R) (npix : nat) : list R := map (fun j => ((1 - refpix + INR j) * delta)%R) (seq 0 npix).
(* np.sort *)
Fixpoint insert (x : R) (l : list R) : list R := match l with [] => [x] | y :: r => if Rle_dec x y then x :: l else y :: insert x r end.
Fixpoint np_sort (l : list R) : list R := match l with [] => [] | x :: r => insert x (np_sort r) end.
Definition to_rad (x : R) : R := (x * PI / 180)%R.
Definition degrees (unit : string) : bool := (String.eqb unit "DEG" || String.eqb unit "deg")%bool.
(* lines 60-66 and 68-74 *)
Definition l_coord (h : fits_header) : list R := np_sort (steps (crpix1 h) (to_rad (cdelt1 h)) (naxis1 h)).
Definition m_coord (h : fits_header) : list R := steps (crpix2 h) (to_rad (cdelt2 h)) (naxis2 h).
(* lines 79-96: bands, frequencies, correlations *)
Definition freq_axis (h : fits_header) : res (nat * arr R * nat) :=
  if String.eqb (ctype4 h) "FREQ" then Ok (naxis4 h, fun k => (crval4 h + (1 - crpix4 h + INR k) * cdelt4 h)%R, naxis3 h)
  else if String.eqb (ctype3 h) "FREQ" then Ok (naxis3 h, fun k => (crval3 h + (1 - crpix3 h + INR k) * cdelt3 h)%R, naxis4 h)
  else Raise ValueError.
(* line 105: np.any(ms_freqs != freqs).  Arrays that cannot be broadcast differ (NumPy before 1.25) *)
Definition neq (x y : R) : bool := if Req_EM_T x y then false else true.
Definition differ (nchan : nat) (ms : arr R) (nband : nat) (fr : arr R) : bool :=
  if Nat.eqb nchan nband then existsb (fun i => neq (ms i) (fr i)) (seq 0 nchan)
  else if Nat.eqb nchan 1 then existsb (fun i => neq (ms 0) (fr i)) (seq 0 nband)
  else if Nat.eqb nband 1 then existsb (fun i => neq (ms i) (fr 0)) (seq 0 nchan)
  else true.
(* RegularGridInterpolator: the grid must be strictly ascending; SciPy from 1.9 on also takes a descending one *)
Definition sorted_by (lt : R -> R -> bool) (n : nat) (g : arr R) : bool := forallb (fun i => lt (g i) (g (S i))) (seq 0 (n - 1)).
Definition rlt (x y : R) : bool := if Rlt_dec x y then true else false.
Definition grid_ok (descending_ok : bool) (n : nat) (g : arr R) : bool := sorted_by rlt n g || (descending_ok && sorted_by (fun x y => rlt y x) n g).
(* its value at x between the points of a grid, extrapolated outside (fill_value=None) *)
Definition before (g : arr R) (n : nat) (x : R) : nat :=
  List.length (filter (fun i => if rlt (g 0) (g 1) then rlt (g i) x else rlt x (g i)) (seq 0 n)).
Definition line (n : nat) (g : arr R) (v : arr R) (x : R) : R :=
  let i := Nat.min (before g n x - 1) (n - 2) in
  let t := ((x - g i) / (g (S i) - g i))%R in
  (v i * (1 - t) + v (S i) * t)%R.
(* lines 101-120, reshaped by line 127 to (nchan, npix_l * npix_m).  data: the image in memory order, its last dimension is NAXIS1.
   The interpolator is evaluated at its own l and m, where it interpolates in frequency only. *)
Definition model_cube (descending_ok : bool) (h : fits_header) (data : arr R) (nchan : nat) (ms : arr R) : res (arr2 R) :=
  do! (nband, fr, ncorr) <- freq_axis h;
  if Nat.ltb 1 ncorr then Raise ValueError else
  let npix := naxis1 h * naxis2 h in
  if differ nchan ms nband fr then
    if (Nat.eqb nband 1 || Nat.eqb (naxis1 h) 1 || Nat.eqb (naxis2 h) 1)%bool then Raise ValueError else     (* squeeze leaves fewer than three dimensions *)
    if negb (grid_ok descending_ok nband fr && grid_ok descending_ok (naxis1 h) (fun i => nth i (l_coord h) 0%R)
             && grid_ok descending_ok (naxis2 h) (fun i => nth i (m_coord h) 0%R)) then Raise ValueError else
    (* the values have dimensions (nband, NAXIS2, NAXIS1), the points (nband, NAXIS1, NAXIS2) *)
    if negb (Nat.eqb (naxis2 h) (naxis1 h)) then Raise ValueError else
    Ok (fun f p => line nband fr (fun k => data (k * npix + p)) (ms f))
  else if negb (Nat.eqb (nchan * npix) (nband * ncorr * npix)) then Raise ValueError
  else Ok (fun f p => data (f * npix + p)).
(* lines 123-134: the pixels that are not zero in every channel; the image and the coordinates of the components *)
Definition nonzero (nchan npix : nat) (cube : arr2 R) : list nat := filter (fun p => existsb (fun f => neq (cube f p) 0%R) (seq 0 nchan)) (seq 0 npix).
Definition components (descending_ok : bool) (h : fits_header) (data : arr R) (nchan : nat) (ms : arr R) : res (nat * arr3 RC * arr2 R) :=
  if negb (degrees (cunit1 h)) then Raise ValueError else
  if negb (degrees (cunit2 h)) then Raise ValueError else
  do! cube <- model_cube descending_ok h data nchan ms;
  if Nat.eqb nchan 0 then Raise ValueError else                                              (* amax of nothing *)
  let idx := nonzero nchan (naxis1 h * naxis2 h) cube in
  if Nat.eqb (List.length idx) 1 then Raise ValueError else                                  (* squeeze makes one index a scalar: transpose of two dimensions *)
  let pixel s := nth s idx 0 in
  Ok (List.length idx, fun s f c => ofR (cube f (pixel s)),
      fun s d => match d with O => nth (pixel s mod naxis1 h) (l_coord h) 0%R | _ => nth (pixel s / naxis1 h) (m_coord h) 0%R end).
(* lines 135-152: chunks of the frequencies, None if they are not one-dimensional; data_corr: the correlations of the column *)
Definition predict_fits (descending_ok : bool) (h : fits_header) (data : arr R) (nchan : nat) (ms : arr R)
    (freq_chunks : option (list nat)) (frequency : arr R) (rows : list nat) (uvw : arr2 R) (data_corr : nat) : res (arr3 RC) :=
  do! (ncomp, image, lm) <- components descending_ok h data nchan ms;
  match freq_chunks with
  | None => Raise ValueError
  | Some chunks =>
      do! vis <- dask_im_to_vis rows [ncomp] [ncomp] [nchan] [1] chunks image uvw lm frequency "fourier";
      if Nat.eqb data_corr 1 then Ok vis
      else if Nat.eqb data_corr 4 then Ok (fun r f c => match c with 0 | 3 => vis r f 0 | _ => c0 end)
      else if Nat.eqb data_corr 2 then Ok (fun r f c => vis r f 0)
      else Raise ValueError
  end.
(* the frequencies of the measurement set: a table with rows, or one row without the dimension *)
Inductive chan_freq : Type := Table (nchan : nat) (f : arr2 R) | Flat (chunks : list nat) (f : arr R).
(* line 50 takes element 0, line 135 the whole *)
Definition script (descending_ok : bool) (h : fits_header) (data : arr R) (cf : chan_freq) (rows : list nat) (uvw : arr2 R) (data_corr : nat) : res (arr3 RC) :=
  match cf with
  | Table nchan f => predict_fits descending_ok h data nchan (f 0) None (fun _ => 0%R) rows uvw data_corr
  | Flat chunks f => predict_fits descending_ok h data 1 f (Some chunks) f rows uvw data_corr
  end.
