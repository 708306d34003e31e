(* Specification vocabulary for C86: the Fourier transform of a sampled kernel *)
From Coq Require Import Reals.
From Verif Require Import Prelude CRing CplxR.
Close Scope R_scope.
Open Scope nat_scope.

(* image coordinate of pixel p, in units of the image size: zero at the centre pixel npix // 2 *)
Definition image_coordinate (npix p : nat) : R := ((INR p - INR (npix / 2)) / INR npix)%R.
(* position of sample i of an oversampled kernel of support W with one unit of padding on either side *)
Definition sample_position (W oversample i : nat) : R := (INR i / INR oversample - INR ((W + 1) / 2))%R.
(* Fourier transform of a kernel of n samples per axis at pixel (m, l) *)
Definition transform (npix W oversample n : nat) (K : arr2 R) (m l : nat) : RC :=
  csum n (fun y => csum n (fun x => cmul (ofR (K y x))
    (cis (-2 * PI * (image_coordinate npix l * sample_position W oversample x + image_coordinate npix m * sample_position W oversample y))%R))).
Definition modulus (z : RC) : R := sqrt (norm2 z).
(* sin (pi x) / (pi x), one at zero *)
Definition sinc_function (x : R) : R := if Req_EM_T x 0 then 1%R else (sin (PI * x) / (PI * x))%R.
(* raised cosine window of parameter a at position u *)
Definition hanning (W : nat) (a u : R) : R := (a + (1 - a) * cos (2 * PI / (INR (W + 2) + 1) * u))%R.
