(* Model of /repo/africanus/model/shape/gaussian_shape.py, model/wsclean/spec_model.py,
   model/spectral/spec_model.py (with their dask wrappers) and rime/wsclean_predict.py over the reals.
   Rounding, dtypes and NaN or infinities (logarithms and real powers of non-positive numbers,
   division by a zero reference frequency, roots of negative numbers) are not modelled. *)
From Coq Require Import Reals String.
From Verif Require Import Prelude CRing CplxR RimeModel DftModel.
Open Scope R_scope.

(* ---------- model/shape/gaussian_shape.py ---------- *)
(* lines 14-16 *)
Definition fwhm : R := 2 * sqrt (2 * ln 2).
Definition fwhminv : R := 1 / fwhm.
Definition gauss_scale : R := fwhminv * sqrt 2 * PI / lightspeed.
Definition Req_bool (x y : R) : bool := if Req_EM_T x y then true else false.
Definition Rle_bool (x y : R) : bool := if Rle_dec x y then true else false.
(* lines 21-53; shape_params is (source, 3): emaj, emin, angle; garbage is np.empty *)
Definition gaussian (nsrc nrow nchan : nat) (uvw : arr2 R) (frequency : arr R) (shape_params : arr2 R) (garbage : arr3 R) : arr3 R :=
  let scaled_freq := for_ nchan (fun f x => upd x f (frequency f * gauss_scale)) (fun _ => 0) in
  for_ nsrc (fun s shape =>
    let emaj := shape_params s 0%nat in let emin := shape_params s 1%nat in let angle := shape_params s 2%nat in
    let el := emaj * sin angle in
    let em := emaj * cos angle in
    let er := emin / (if Req_bool emaj 0 then 1 else emaj) in
    for_ nrow (fun r shape =>
      let u := uvw r 0%nat in let v := uvw r 1%nat in
      let u1 := (u * em - v * el) * er in
      let v1 := u * el + v * em in
      for_ nchan (fun f shape =>
        let fu1 := u1 * scaled_freq f in
        let fv1 := v1 * scaled_freq f in
        upd3 shape s r f (exp (- (fu1 * fu1 + fv1 * fv1)))) shape) shape) garbage.

(* ---------- model/wsclean/spec_model.py ---------- *)
(* the argument log_poly: a bool or an array with its length *)
Inductive logpoly := LScalar (b : bool) | LArray (n : nat) (a : arr bool).
(* lines 47-57 *)
Definition log_polynomial (lp : logpoly) (s : nat) : bool := match lp with LScalar b => b | LArray _ a => a s end.
(* lines 32-43 *)
Definition check_log_poly_shape (n : nat) (lp : logpoly) : res unit :=
  match lp with LScalar _ => Ok tt | LArray k _ => if Nat.eqb n k then Ok tt else Raise ValueError end.
(* lines 66-117; nI, ncf, nrf are the first dimensions of I, coeffs and ref_freq *)
Definition spectra (nI ncf nrf nchan ncoeffs : nat) (I : arr R) (coeffs : arr2 R) (log_poly : logpoly) (ref_freq frequency : arr R) (garbage : arr2 R) : res (arr2 R) :=
  if negb (Nat.eqb nI ncf && Nat.eqb ncf nrf)%bool then Raise ValueError else
  do! _ <- check_log_poly_shape ncf log_poly;
  forM nI (fun s sm =>
    let rf := ref_freq s in
    if log_polynomial log_poly s then
      forM nchan (fun f sm =>
        let nu := frequency f in
        let flux := I s in
        if Rle_bool flux 0 then Raise ValueError else
        let sm := upd2 sm s f (ln flux) in
        do! sm <- forM ncoeffs (fun c sm =>
          let term := coeffs s c in
          if Rle_bool term 0 then Raise ValueError else
          Ok (upd2 sm s f (sm s f + term * ln (nu / rf) ^ (c + 1)))) sm;
        Ok (upd2 sm s f (exp (sm s f)))) sm
    else
      Ok (for_ nchan (fun f sm =>
        let nu := frequency f in
        let sm := upd2 sm s f (I s) in
        for_ ncoeffs (fun c sm =>
          let term := coeffs s c in
          upd2 sm s f (sm s f + term * (nu / rf - 1) ^ (c + 1))) sm) sm)) garbage.
(* lines 9-16, one element; sum(axis=2) *)
Definition ordinary_spectral_model (ncoeffs : nat) (I : arr R) (coeffs : arr2 R) (freq ref_freq : arr R) (s f : nat) : R :=
  I s + csum (K := RR) ncoeffs (fun c => coeffs s c * (freq f / ref_freq s - 1) ^ (c + 1)).
(* lines 19-28, one element *)
Definition log_spectral_model (ncoeffs : nat) (I : arr R) (coeffs : arr2 R) (log_poly : arr bool) (freq ref_freq : arr R) (s f : nat) : R :=
  let I := fun s => if log_poly s then I s else 1 in
  exp (ln (I s) + csum (K := RR) ncoeffs (fun c => coeffs s c * ln (freq f / ref_freq s) ^ (c + 1))).

(* ---------- model/spectral/spec_model.py ---------- *)
(* one base: an integer or a string *)
Inductive base1 := BInt (z : Z) | BStr (s : string).
(* the argument base; a numba list holds one type only, which is not enforced here *)
Inductive base := BOne (b : base1) | BList (l : list base1) | BOther.
(* lines 110-130 *)
Definition is_std (b : base1) : bool := match b with BInt z => Z.eqb z 0 | BStr s => String.eqb s "std" end.
Definition is_log (b : base1) : bool := match b with BInt z => Z.eqb z 1 | BStr s => String.eqb s "log" end.
Definition is_log10 (b : base1) : bool := match b with BInt z => Z.eqb z 2 | BStr s => String.eqb s "log10" end.
(* lines 74-82 *)
Definition promote_base (b : base) (npol : nat) : res (list base1) :=
  match b with
  | BOther => Raise TypeError
  | BOne b => Ok (repeat b npol)
  | BList l => match rev l with [] => Raise IndexError | last :: _ => Ok (l ++ repeat last (npol - List.length l)) end
  end.
Definition log10 (x : R) : R := ln x / ln 10.
Definition exp10 (x : R) : R := Rpower 10 x.
(* the pol dimension of stokes and of spi: absent (one polarisation) or of some size (lines 58-71);
   more than one pol dimension is not modelled *)
Definition npol_of (d : option nat) : nat := match d with None => 1 | Some n => n end.
(* lines 164-208: the loop over the bases, p counting up *)
Fixpoint spectral_loop (bases : list base1) (p : nat) (nsrc nchan nspi : nat) (stokes : arr2 R) (spi : arr3 R) (ref_freq frequency : arr R) (out : arr3 R) : res (arr3 R) :=
  match bases with
  | [] => Ok out
  | b :: rest =>
      do! out <-
        (if is_std b then
           Ok (for_ nsrc (fun s out => let rf := ref_freq s in
             for_ nchan (fun f out =>
               let freq_ratio := frequency f / rf in
               let spec_model := for_ nspi (fun si x => x * Rpower freq_ratio (spi s si p)) (stokes s p) in
               upd3 out s f p spec_model) out) out)
         else if is_log b then
           Ok (for_ nsrc (fun s out => let rf := ref_freq s in
             for_ nchan (fun f out =>
               let freq_ratio := ln (frequency f / rf) in
               let spec_model := for_ nspi (fun si x => x + spi s si p * freq_ratio ^ (si + 1)) (ln (stokes s p)) in
               upd3 out s f p (exp spec_model)) out) out)
         else if is_log10 b then
           Ok (for_ nsrc (fun s out => let rf := ref_freq s in
             for_ nchan (fun f out =>
               let freq_ratio := log10 (frequency f / rf) in
               let spec_model := for_ nspi (fun si x => x + spi s si p * freq_ratio ^ (si + 1)) (log10 (stokes s p)) in
               upd3 out s f p (exp10 spec_model)) out) out)
         else Raise ValueError);
      spectral_loop rest (S p) nsrc nchan nspi stokes spi ref_freq frequency out
  end.
(* lines 97-213 *)
Definition spectral_model (nsrc nchan nspi : nat) (stokes_pol spi_pol : option nat) (stokes : arr2 R) (spi : arr3 R) (ref_freq frequency : arr R) (b : base) (garbage : arr3 R) : res (arr3 R) :=
  match b with BOther => Raise TypeError | _ =>
    match stokes_pol, spi_pol with
    | None, Some _ | Some _, None => Raise ValueError
    | _, _ =>
        let npol := npol_of stokes_pol in
        if negb (Nat.eqb npol (npol_of spi_pol)) then Raise ValueError else
        do! list_base <- promote_base b npol;
        spectral_loop (firstn npol list_base) 0 nsrc nchan nspi stokes spi ref_freq frequency garbage
    end
  end.

(* lines 11-55: whole-array expressions, given per element; the loop visits every base of the list, and
   indexing polarisation p >= npol raises.  Only matching pol dimensions are modelled. *)
Definition in_std (b : base1) : bool := match b with BInt z => Z.eqb z 0 | BStr s => String.eqb s "std" end.
Definition in_log (b : base1) : bool := match b with BInt z => Z.eqb z 1 | BStr s => String.eqb s "log" end.
Definition in_log10 (b : base1) : bool := match b with BInt z => Z.eqb z 2 | BStr s => String.eqb s "log10" end.
Fixpoint prodR (n : nat) (f : nat -> R) : R := match n with O => 1 | S k => prodR k f * f k end.
Fixpoint numpy_loop (bases : list base1) (p npol nspi : nat) (stokes : arr2 R) (spi : arr3 R) (ref_freq frequency : arr R) (out : arr3 R) : res (arr3 R) :=
  match bases with
  | [] => Ok out
  | b :: rest =>
      do! out <-
        (if in_std b then
           if Nat.ltb p npol then
             Ok (fun s f q => if Nat.eqb q p then out s f q * prodR nspi (fun si => Rpower (frequency f / ref_freq s) (spi s si p)) else out s f q)
           else Raise IndexError
         else if in_log b then
           if Nat.ltb p npol then
             Ok (fun s f q => if Nat.eqb q p then exp (ln (stokes s p) + csum (K := RR) nspi (fun si => spi s si p * ln (frequency f / ref_freq s) ^ (si + 1))) else out s f q)
           else Raise IndexError
         else if in_log10 b then
           if Nat.ltb p npol then
             Ok (fun s f q => if Nat.eqb q p then exp10 (log10 (stokes s p) + csum (K := RR) nspi (fun si => spi s si p * log10 (frequency f / ref_freq s) ^ (si + 1))) else out s f q)
           else Raise IndexError
         else Raise ValueError);
      numpy_loop rest (S p) npol nspi stokes spi ref_freq frequency out
  end.
Definition numpy_spectral_model (nspi : nat) (pol : option nat) (stokes : arr2 R) (spi : arr3 R) (ref_freq frequency : arr R) (b : base) : res (arr3 R) :=
  let npol := npol_of pol in
  do! bases <- match b with
               | BList l => match rev l with [] => Raise IndexError | last :: _ => Ok (l ++ repeat last (npol - List.length l)) end
               | BOne b => Ok (repeat b npol)
               | BOther => if Nat.eqb npol 0 then Ok [] else Raise ValueError
               end;
  numpy_loop bases 0 npol nspi stokes spi ref_freq frequency (fun s f p => stokes s p).

(* model/spectral/dask.py:17-34, element (s, f, p): the block holding it; spi_chunks is the chunking of
   the spi dimension.  Every block receives the whole base argument. *)
Definition dask_spectral_model (src chan spi_chunks : list nat) (pol : list nat) (stokes : arr2 R) (spi : arr3 R) (ref_freq frequency : arr R) (b : base) (garbage : arr3 R) (s f p : nat) : res R :=
  if negb (Nat.eqb (List.length spi_chunks) 1) then Raise ValueError else
  let '(s0, ns) := locate O src s in
  let '(f0, nf) := locate O chan f in
  let '(p0, np) := locate O pol p in
  do! m <- spectral_model ns nf (hd O spi_chunks) (Some np) (Some np) (fun i j => stokes (s0 + i)%nat (p0 + j)%nat)
             (fun i k j => spi (s0 + i)%nat k (p0 + j)%nat) (fun i => ref_freq (s0 + i)%nat) (fun i => frequency (f0 + i)%nat) b garbage;
  Ok (m (s - s0)%nat (f - f0)%nat (p - p0)%nat).

(* ---------- rime/wsclean_predict.py ---------- *)
(* lines 16-86; ncorr is 1 *)
Definition wsclean_predict_impl (nsrc nrow nchan : nat) (uvw lm : arr2 R) (source_type : arr string) (gauss_shape : arr2 R) (frequency : arr R) (spectrum : arr2 R) : res (arr3 RC) :=
  let scaled_freq := fun f => frequency f * gauss_scale in
  forM nsrc (fun s vis =>
    let l := lm s 0%nat in let m := lm s 1%nat in
    let n := sqrt (1 - l * l - m * m) - 1 in
    if String.eqb (source_type s) "POINT" then
      Ok (for_ nrow (fun r vis =>
        let u := uvw r 0%nat in let v := uvw r 1%nat in let w := uvw r 2%nat in
        let real_phase := two_pi_over_c * (u * l + v * m + w * n) in
        for_ nchan (fun f vis =>
          let p := real_phase * frequency f in
          let re := cos p * spectrum s f in
          let im := sin p * spectrum s f in
          upd3 vis r f 0%nat (cadd (vis r f 0%nat) ((re, im) : RC))) vis) vis)
    else if String.eqb (source_type s) "GAUSSIAN" then
      let emaj := gauss_shape s 0%nat in let emin := gauss_shape s 1%nat in let angle := gauss_shape s 2%nat in
      let el := emaj * sin angle in
      let em := emaj * cos angle in
      let er := emin / (if Req_bool emaj 0 then 1 else emaj) in
      Ok (for_ nrow (fun r vis =>
        let u := uvw r 0%nat in let v := uvw r 1%nat in let w := uvw r 2%nat in
        let real_phase := two_pi_over_c * (u * l + v * m + w * n) in
        let u1 := (u * em - v * el) * er in
        let v1 := u * el + v * em in
        for_ nchan (fun f vis =>
          let p := real_phase * frequency f in
          let re := cos p * spectrum s f in
          let im := sin p * spectrum s f in
          let fu1 := u1 * scaled_freq f in
          let fv1 := v1 * scaled_freq f in
          let shape := exp (- (fu1 * fu1 + fv1 * fv1)) in
          let re := re * shape in
          let im := im * shape in
          upd3 vis r f 0%nat (cadd (vis r f 0%nat) ((re, im) : RC))) vis) vis)
    else Raise ValueError) (fun _ _ _ => (c0 : RC)).
(* lines 96-100; matching source dimensions *)
Definition wsclean_predict (nsrc nrow nchan ncoeffs : nat) (uvw lm : arr2 R) (source_type : arr string) (flux : arr R) (coeffs : arr2 R) (log_poly : logpoly)
    (ref_freq : arr R) (gauss_shape : arr2 R) (frequency : arr R) (garbage : arr2 R) : res (arr3 RC) :=
  do! spectrum <- spectra nsrc nsrc nsrc nchan ncoeffs flux coeffs log_poly ref_freq frequency garbage;
  wsclean_predict_impl nsrc nrow nchan uvw lm source_type gauss_shape frequency spectrum.
(* rime/dask_predict.py:458-499, element (r, f, 0): the sum over the source chunks of the block holding it;
   comp is the chunking of the coefficients, of which the wrapper takes the first chunk *)
Definition dask_wsclean_predict (src rows chan comp : list nat) (uvw lm : arr2 R) (source_type : arr string) (flux : arr R) (coeffs : arr2 R) (log_poly : arr bool)
    (ref_freq : arr R) (gauss_shape : arr2 R) (frequency : arr R) (garbage : arr2 R) (r f : nat) : res RC :=
  let '(r0, nr) := locate O rows r in
  let '(f0, nf) := locate O chan f in
  fold_left (fun acc '(s0, ns) =>
    do! acc <- acc;
    do! spectrum <- spectra ns ns ns nf (hd O comp) (fun i => flux (s0 + i)%nat) (fun i => coeffs (s0 + i)%nat) (LArray ns (fun i => log_poly (s0 + i)%nat))
                      (fun i => ref_freq (s0 + i)%nat) (fun i => frequency (f0 + i)%nat) garbage;
    do! vis <- wsclean_predict_impl ns nr nf (fun i => uvw (r0 + i)%nat) (fun i => lm (s0 + i)%nat) (fun i => source_type (s0 + i)%nat)
                 (fun i => gauss_shape (s0 + i)%nat) (fun i => frequency (f0 + i)%nat) spectrum;
    Ok (cadd acc (vis (r - r0)%nat (f - f0)%nat 0%nat))) (starts O src) (Ok (c0 : RC)).
