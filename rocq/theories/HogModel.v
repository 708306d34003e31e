(* Model of /repo/africanus/deconv/hogbom/clean.py over the real numbers.  Rounding and NaN are not modelled;
   logging is dropped.  scipy's curve_fit is an oracle. *)
From Coq Require Import Reals.
From Verif Require Import Prelude CRing CplxR.
Open Scope R_scope.

(* residuals.min() and residuals.max() of an (nx, ny) array *)
Definition amin (nx ny : nat) (a : arr2 R) : R := for_ nx (fun x m => for_ ny (fun y m => Rmin m (a x y)) m) (a 0 0)%nat.
Definition amax (nx ny : nat) (a : arr2 R) : R := for_ nx (fun x m => for_ ny (fun y m => Rmax m (a x y)) m) (a 0 0)%nat.
(* lines 71-100.  None is -1; an empty image has no minimum. *)
Record peak_state : Type := { k_min : option (nat * nat); k_max : option (nat * nat); k_val : R }.
Definition find_peak (nx ny : nat) (residuals : arr2 R) : res (nat * nat * nat * nat * R) :=
  if (Nat.eqb nx 0 || Nat.eqb ny 0)%bool then Raise ValueError else
  let min_peak := amin nx ny residuals in
  let max_peak := amax nx ny residuals in
  let st := for_ nx (fun x => for_ ny (fun y st =>
      let intensity := residuals x y in
      let st := if Req_EM_T intensity min_peak then {| k_min := Some (x, y); k_max := k_max st; k_val := k_val st |} else st in
      if Req_EM_T intensity max_peak then {| k_min := k_min st; k_max := Some (x, y); k_val := intensity |} else st))
    {| k_min := None; k_max := None; k_val := -1 |} in
  match k_min st, k_max st with
  | Some (minx, miny), Some (maxx, maxy) => Ok (maxx, maxy, minx, miny, k_val st)
  | _, _ => Raise ValueError
  end.
(* lines 103-105 *)
Definition build_cleanmap (clean : arr2 R) (intensity gamma : R) (p q : nat) : arr2 R := upd2 clean p q (clean p q + intensity * gamma).
(* lines 108-112; npix is residual.shape[0]; the slices are within the PSF for p, q < npix *)
Definition update_residual (residual : arr2 R) (intensity gamma : R) (p q npix : nat) (psf : arr2 R) : arr2 R :=
  fun x y => residual x y - gamma * intensity * psf (npix - 1 - p + x)%nat (npix - 1 - q + y)%nat.
(* lines 164-184: the loop runs while |intensity| > threshold and i <= niter; fuel is what is left of niter + 1 *)
Fixpoint clean_loop (fuel : nat) (npix : nat) (psf : arr2 R) (gamma threshold : R) (clean residuals : arr2 R) (p q : nat) (intensity : R) : res (arr2 R * arr2 R) :=
  match fuel with
  | O => Ok (clean, residuals)
  | S fuel =>
      if Rlt_dec threshold (Rabs intensity) then
        let clean := build_cleanmap clean intensity gamma p q in
        let residuals := update_residual residuals intensity gamma p q npix psf in
        do! (p, q, _, _, intensity) <- find_peak npix npix residuals;
        clean_loop fuel npix psf gamma threshold clean residuals p q intensity
      else Ok (clean, residuals)
  end.
(* lines 115-188; None is "default" *)
Definition hogbom_clean (ny nx : nat) (dirty : arr2 R) (py px : nat) (psf : arr2 R) (gamma : R) (threshold : option R) (niter : option Z) : res (arr2 R * arr2 R) :=
  let residuals := dirty in
  if (negb (Nat.eqb py (2 * ny)) || negb (Nat.eqb px (2 * nx)))%bool then Raise ValueError
  else if negb (Nat.eqb ny nx) then Raise AssertionError
  else
    let npix := ny in
    let niter := match niter with Some n => n | None => (3 * Z.of_nat npix)%Z end in
    do! (p, q, _, _, intensity) <- find_peak npix npix residuals;
    let threshold := match threshold with Some t => t * Rabs intensity | None => 2 / 10 * Rabs intensity end in
    clean_loop (Z.to_nat (niter + 1)) npix psf gamma threshold (fun _ _ => 0) residuals p q intensity.

(* ---------- restoring ---------- *)
(* scipy.signal.fftconvolve(a, b, mode='same') for a of shape (n0, n1) and b of shape (m0, m1): the full
   convolution, cut to the shape of a from offset (n + m - 1 - n) / 2 in each axis *)
Definition conv_at (n0 n1 m0 m1 : nat) (a b : arr2 R) (i j : nat) : R :=
  csum (K := RR) n0 (fun p => csum (K := RR) n1 (fun q =>
    if (Nat.leb p i && Nat.ltb (i - p) m0 && Nat.leb q j && Nat.ltb (j - q) m1)%bool then a p q * b (i - p)%nat (j - q)%nat else 0)).
Definition fftconvolve_same (n0 n1 m0 m1 : nat) (a b : arr2 R) : arr2 R :=
  fun x y => conv_at n0 n1 m0 m1 a b (x + (n0 + m0 - 1 - n0) / 2)%nat (y + (n1 + m1 - 1 - n1) / 2)%nat.
(* lines 20-34: one element of g *)
Record gparams : Type := { g_amp : R; g_xo : R; g_yo : R; g_sx : R; g_sy : R; g_theta : R; g_off : R }.
Definition twod_gaussian (k : gparams) (x y : R) : R :=
  let a := (cos (g_theta k)) ^ 2 / (2 * (g_sx k) ^ 2) + (sin (g_theta k)) ^ 2 / (2 * (g_sy k) ^ 2) in
  let b := - sin (2 * g_theta k) / (4 * (g_sx k) ^ 2) + sin (2 * g_theta k) / (4 * (g_sy k) ^ 2) in
  let c := (sin (g_theta k)) ^ 2 / (2 * (g_sx k) ^ 2) + (cos (g_theta k)) ^ 2 / (2 * (g_sy k) ^ 2) in
  g_off k + g_amp k * exp (- (a * (x - g_xo k) ^ 2 + 2 * b * (x - g_xo k) * (y - g_yo k) + c * (y - g_yo k) ^ 2)).
Section Restore.
  (* opt.curve_fit on the part of the PSF above half of its maximum *)
  Context (curve_fit : arr2 R -> gparams).
  (* lines 37-68 for a square (n, n) PSF: np.meshgrid puts x along the second axis *)
  Definition fit_2d_gaussian (n : nat) (psf : arr2 R) : arr2 R :=
    let half := / 2 * amax n n psf in
    let psf_fit := fun i j => if Rle_dec half (psf i j) then psf i j else 0 in
    let popt := curve_fit psf_fit in
    let data_fitted := fun i j => twod_gaussian popt (INR j) (INR i) in
    fun i j => data_fitted i j / amax n n data_fitted.
  (* lines 191-226 *)
  Definition restore (n : nat) (clean psf residuals : arr2 R) : arr2 R * arr2 R :=
    let clean_beam := fit_2d_gaussian (2 * n) psf in
    let iconv_model := fftconvolve_same n n (2 * n) (2 * n) clean clean_beam in
    (fun x y => iconv_model x y + residuals x y, iconv_model).
End Restore.
