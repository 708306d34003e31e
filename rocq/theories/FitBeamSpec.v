(* What the beam at a pixel should be. *)
From Coq Require Import Reals.
From Coq Require Import String Ascii.
From Verif Require Import Prelude CRing CplxR BeamModel BeamSpec FitterModel FitterSpec FitBeamModel.
Open Scope list_scope.
Open Scope R_scope.

(* sub occurs in s *)
Definition occurs (sub s : string) : Prop := exists a b, s = (a ++ sub ++ b)%string.
(* the letters that are looked for anywhere in a path *)
Definition hand1 : list string := ["xx"; "XX"; "rr"; "RR"]%string.
Definition hand2 : list string := ["yy"; "YY"; "ll"; "LL"]%string.
Definition parts : list string := ["re"; "im"]%string.
(* the file of one correlation and part: <name>_xx_re.fits *)
Definition beam_file (name corr part : string) : string := (name ++ "_" ++ corr ++ "_" ++ part ++ ".fits")%string.
(* linear interpolation of two planes of an image of n2 rows and n1 columns at fractional pixel positions *)
Definition sampled (n2 n1 : nat) (A : arr3 R) (w : R) (k : nat) (row col : R) : R :=
  csum (K := RR) n2 (fun i => csum (K := RR) n1 (fun j => hat (row - INR i) * hat (col - INR j) * (w * A k i j + (1 - w) * A (S k) i j))).
(* fractional pixel position (from zero) of a coordinate *)
Definition pixel (ref step x : R) : R := x / step + ref - 1.
(* coordinate of pixel j *)
Definition coordinate (ref step : R) (j : nat) : R := (INR j + 1 - ref) * step.
(* average power of the two hands *)
Definition stokes_i (a b c d : arr3 R) (p i j : nat) : R := (a p i j * a p i j + b p i j * b p i j + c p i j * c p i j + d p i j * d p i j) / 2.
(* a usable beam header: degrees, increasing axes, at least two samples each *)
Definition usable (bh : beam_hdr) : Prop := degrees (bh_cunit1 bh) /\ degrees (bh_cunit2 bh) /\ bh_ctype3 bh = "FREQ"%string /\
  (2 <= bh_naxis1 bh)%nat /\ (2 <= bh_naxis2 bh)%nat /\ (2 <= bh_naxis3 bh)%nat /\ 0 < bh_cdelt1 bh /\ 0 < bh_cdelt2 bh /\ 0 < bh_cdelt3 bh.
(* all the pixels lie between the first pixel of the beam image and one pixel past its last *)
Definition covers (bh : beam_hdr) (h : fits_hdr) (mask : list (nat * nat)) : Prop :=
  forall i j, In (i, j) mask ->
    0 <= pixel (bh_crpix1 bh) (bh_cdelt1 bh) (coordinate (crpix1 h) (cdelt1 h) j) <= INR (bh_naxis1 bh) /\
    0 <= pixel (bh_crpix2 bh) (bh_cdelt2 bh) (coordinate (crpix2 h) (cdelt2 h) i) <= INR (bh_naxis2 bh).
(* the four images are found and are the ones given *)
Definition loads (disk : string -> beam_image) (paths : list string) (bh : beam_hdr) (a b c d : arr3 R) : Prop :=
  load_all disk paths unassigned = Ok {| c1_re := Some a; c1_im := Some b; c2_re := Some c; c2_im := Some d; l_hdr := Some bh |}.
(* the names of the two hands that go together *)
Definition hands : list (string * string) := [("xx", "yy"); ("XX", "YY"); ("rr", "ll"); ("RR", "LL")]%string.
