(* The clean beam and the restoring convolution of the spectral index fitter.
   Models africanus/model/spi/examples/simple_spi_fitter.py:12-113.
   Arithmetic is over the reals; the FFT library (pypocketfft or numpy.fft) is modelled by the sums it computes. *)
From Coq Require Import Reals.
From Verif Require Import Prelude CRing CplxR FftFacts.
Open Scope R_scope.

(* ---- Gaussian2D, simple_spi_fitter.py:44-72 ---- *)
(* extent and the test of lines 58-61 *)
Definition in_extent (s0 s1 x y : R) : bool := if Rle_dec (x * x + y * y) ((5 * Rmax s0 s1) * (5 * Rmax s0 s1)) then true else false.
(* lines 46-55 and 65: the position angle plus 90 goes straight into cos and sin; A = R^T diag(1/SMaj^2, 1/SMin^2) R *)
Definition form (s0 s1 pa x y : R) : R :=
  let t := 90 + pa in
  let a := 1 / (Rmax s0 s1 * Rmax s0 s1) in
  let b := 1 / (Rmin s0 s1 * Rmin s0 s1) in
  let a00 := cos t * a * cos t + sin t * b * sin t in
  let a01 := cos t * a * (- sin t) + sin t * b * cos t in
  let a10 := (- sin t) * a * cos t + cos t * b * sin t in
  let a11 := (- sin t) * a * (- sin t) + cos t * b * cos t in
  x * a00 * x + x * a01 * y + y * a10 * x + y * a11 * y.
(* line 67 *)
Definition fwhm_conv : R := 2 * sqrt (2 * ln 2).
(* number of pixels that pass the test: the length of np.argwhere, line 61 *)
Definition tally (n1 n2 : nat) (p : nat -> nat -> bool) : nat :=
  for_ n1 (fun i c => for_ n2 (fun j c => if p i j then S c else c) c) O.
(* the whole function on arrays of shape (n1, n2); positive widths.  The two squeezes (lines 59-61) leave fewer than two axes
   when an image axis has length one or exactly one pixel passes, and ind[:, 0] or ind[:, 1] is then an IndexError *)
Definition Gaussian2D (n1 n2 : nat) (xin yin : arr2 R) (s0 s1 pa : R) : res (arr2 R) :=
  if (n1 =? 1)%nat || (n2 =? 1)%nat || (tally n1 n2 (fun i j => in_extent s0 s1 (xin i j) (yin i j)) =? 1)%nat then Raise IndexError else
  Ok (fun i j => if in_extent s0 s1 (xin i j) (yin i j) then exp (- fwhm_conv * form s0 s1 pa (xin i j) (yin i j)) else 0).

(* ---- convolve_model, simple_spi_fitter.py:75-113 ---- *)
(* int(pfrac*npix), lines 79-81, for a padding fraction that is not negative *)
Definition npad (frac : R) (n : nat) : nat := Z.to_nat (Int_part (frac / 2 * INR n)).
(* lines 83-100: [fast] is scipy.fftpack.next_fast_len, None when it cannot be imported; (left, right) *)
Definition axis_pad (fast : option (nat -> nat)) (frac : R) (n : nat) : nat * nat :=
  match fast with
  | Some next => let nfft := next (n + 2 * npad frac n)%nat in let l := Nat.div (nfft - n) 2 in (l, (nfft - n - l)%nat)
  | None => (npad frac n, npad frac n)
  end.
(* np.pad(mode='constant') along both image axes, lines 105, 109 *)
Definition pad2 (n1 n2 l1 l2 : nat) (x : arr2 R) : arr2 R := fun i j =>
  if ((l1 <=? i) && (i <? l1 + n1) && (l2 <=? j) && (j <? l2 + n2))%nat%bool then x (i - l1)%nat (j - l2)%nat else 0.
(* np.fft.ifftshift and np.fft.fftshift over both axes of an (n1, n2) array, lines 12-13 *)
Definition iFs (n1 n2 : nat) (x : arr2 R) : arr2 R := fun i j => x (Nat.modulo (i + Nat.div n1 2) n1) (Nat.modulo (j + Nat.div n2 2) n2).
Definition Fs (n1 n2 : nat) (x : arr2 R) : arr2 R := fun i j => x (Nat.modulo (i + (n1 - Nat.div n1 2)) n1) (Nat.modulo (j + (n2 - Nat.div n2 2)) n2).
(* fft, lines 20-22 and 37-38: forward transform of real data, columns 0 .. n2/2 *)
Definition r2c (n1 n2 : nat) (x : arr2 R) : arr2 RC := fun k1 k2 =>
  csum n1 (fun i1 => csum n2 (fun i2 =>
    cmul (cmul (ofR (x i1 i2)) (root n2 (- (Z.of_nat k2 * Z.of_nat i2)))) (root n1 (- (Z.of_nat k1 * Z.of_nat i1))))).
(* ifft, lines 24-26 and 40-41: inverse transform to real data of n2 columns from the columns 0 .. n2/2 of a half spectrum;
   the missing columns are the conjugates of their mirror images *)
Definition mirrored (n1 n2 : nat) (y : arr2 RC) : arr2 RC := fun k1 k2 =>
  if (k2 <=? Nat.div n2 2)%nat then y k1 k2 else cconj (y (Nat.modulo (n1 - k1) n1) (n2 - k2)%nat).
Definition c2r (n1 n2 : nat) (y : arr2 RC) : arr2 R := fun i1 i2 =>
  re (csum n1 (fun k1 => csum n2 (fun k2 =>
        cmul (cmul (mirrored n1 n2 y k1 k2) (root n2 (Z.of_nat k2 * Z.of_nat i2))) (root n1 (Z.of_nat k1 * Z.of_nat i1)))))
  / (INR n1 * INR n2).
(* columns of the inverse transform: lastsize with pypocketfft (lines 25, 102); numpy's irfftn is called without a shape (line 41)
   and takes twice the number of stored columns less one *)
Definition last_columns (pocket : bool) (n2 : nat) : nat := if pocket then n2 else (2 * Nat.div n2 2)%nat.
(* slice(l, -r) of an axis of length n: start and length; -0 is 0, lines 92-93, 99-100 *)
Definition unpad (n l r : nat) : nat * nat := (l, ((if (r =? 0)%nat then 0 else n - r) - l)%nat).

(* a cube with two image axes *)
Record cube := { cu_1 : nat; cu_2 : nat; cu_at : arr3 R }.
(* the whole function on a model of image shape (n1, n2); the first axis (bands) is never mixed *)
Definition convolve_model (pocket : bool) (fast : option (nat -> nat)) (frac : R) (n1 n2 : nat) (model : arr3 R) (gausskern : arr2 R) : cube :=
  let '(l1, r1) := axis_pad fast frac n1 in
  let '(l2, r2) := axis_pad fast frac n2 in
  let m1 := (n1 + (l1 + r1))%nat in
  let m2 := (n2 + (l2 + r2))%nat in
  let last := last_columns pocket m2 in
  let gausskernhat := r2c m1 m2 (iFs m1 m2 (pad2 n1 n2 l1 l2 gausskern)) in
  let '(a1, w1) := unpad m1 l1 r1 in
  let '(a2, w2) := unpad last l2 r2 in
  {| cu_1 := w1; cu_2 := w2;
     cu_at := fun b i j =>
       let convmodel := r2c m1 m2 (iFs m1 m2 (pad2 n1 n2 l1 l2 (model b))) in
       Fs m1 last (c2r m1 last (fun k1 k2 => cmul (convmodel k1 k2) (gausskernhat k1 k2))) (a1 + i)%nat (a2 + j)%nat |}.
