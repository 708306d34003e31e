(* What the spectral index fitter should produce. *)
From Coq Require Import Reals.
From Coq Require Import String Ascii.
From Verif Require Import Prelude CRing CplxR SpiSpec RestoreModel FitterModel.
Open Scope list_scope.
Open Scope R_scope.

(* a pixel of the restored cube above the threshold in every band *)
Definition bright (nb : nat) (c : cube) (threshold : R) (i j : nat) : Prop :=
  (i < cu_1 c)%nat /\ (j < cu_2 c)%nat /\ forall b, (b < nb)%nat -> threshold < cu_at c b i j.
(* index and intensity found for the spectrum d: Gauss-Newton steps for a power law from the index -0.7 and the value at the channel
   nearest the reference frequency, until neither parameter changes by more than 1e-5 or a hundred steps are done *)
Definition fit_of (n : nat) (d wt freqs : arr R) (freq0 a i : R) : Prop :=
  exists k (p : nat -> R * R), (1 <= k <= 100)%nat /\
    fst (p O) = - (7 / 10) /\ (exists near, nearest n freqs freq0 near /\ snd (p O) = d near) /\
    (forall s, (s < k)%nat -> p (S s) = newton n d wt (fun v => freqs v / freq0) (fun _ => 1) (1 / 10 ^ 12) (p s)) /\
    (forall s, (s < k - 1)%nat -> 1 / 10 ^ 5 < change (p s) (p (S s))) /\ (change (p (k - 1)%nat) (p k) <= 1 / 10 ^ 5 \/ k = 100%nat) /\
    a = fst (p k) /\ i = snd (p k).
(* weights inversely proportional to the variance in each band, the largest one being one; none for a band without noise *)
Definition inverse_variance (nb : nat) (rms wt : arr R) : Prop :=
  exists s, 0 < s /\ (forall b, (b < nb)%nat -> 0 < rms b -> wt b = s / Rsqr (rms b)) /\ (forall b, (b < nb)%nat -> rms b <= 0 -> wt b = 0) /\
    (forall b, (b < nb)%nat -> wt b <= 1) /\ exists b, (b < nb)%nat /\ wt b = 1.
(* root of the mean square deviation from the mean, over bands lo .. lo + nb - 1 *)
Definition average (lo nb n1 n2 : nat) (x : arr3 R) : R :=
  csum (K := RR) nb (fun b => csum (K := RR) n1 (fun i => csum (K := RR) n2 (fun j => x (lo + b)%nat i j))) / INR (nb * n1 * n2).
Definition rms (lo nb n1 n2 : nat) (x : arr3 R) : R :=
  sqrt (average lo nb n1 n2 (fun b i j => (x b i j - average lo nb n1 n2 x) * (x b i j - average lo nb n1 n2 x))).
(* frequencies of the bands *)
Definition band_freq (ref step crval : R) (b : nat) : R := crval + (INR b + 1 - ref) * step.
(* the header describes nband bands: (axis, nband, reference pixel, step, value) *)
Definition describes_bands (h : fits_hdr) (ax nband : nat) (ref step value : R) : Prop :=
  (ctype4 h = "FREQ"%string /\ ax = 4%nat /\ nband = naxis4 h /\ ref = crpix4 h /\ step = cdelt4 h /\ value = crval4 h /\ (naxis3 h <= 1)%nat) \/
  (ctype4 h <> "FREQ"%string /\ ctype3 h = "FREQ"%string /\ ax = 3%nat /\ nband = naxis3 h /\ ref = crpix3 h /\ step = cdelt3 h /\ value = crval3 h /\ (naxis4 h <= 1)%nat).
Definition degrees (u : string) : Prop := u = "DEG"%string \/ u = "deg"%string.
(* beam parameters in use *)
Definition beam_given (o : options) (rd : residual) (b : R * R * R) : Prop :=
  (o_beampars o = None /\ r_beam rd = Some b) \/ (let '(x, y, z) := b in o_beampars o = Some [x; y; z]).
(* two sets of arguments that differ only in the number of threads *)
Definition same_but_threads (o o' : options) : Prop :=
  o_beampars o = o_beampars o' /\ o_threshold o = o_threshold o' /\ o_padding o = o_padding o'.
Definition no_slash (s : string) : Prop := ~ In "/"%char (list_ascii_of_string s).
(* everything the fit needs before it looks at the pixels: G is the clean beam, nband and the rest describe the bands *)
Definition ready (o : options) (rd : residual) (h : fits_hdr) (ax nband : nat) (ref step value : R) (G : arr2 R) : Prop :=
  exists emaj emin pa, beam_given o rd (emaj, emin, pa) /\ degrees (cunit1 h) /\ degrees (cunit2 h) /\ describes_bands h ax nband ref step value /\ (2 < nband)%nat /\
    Gaussian2D (naxis2 h) (naxis1 h) (fun _ j => (INR j + 1 - crpix1 h) * cdelt1 h) (fun i _ => (INR i + 1 - crpix2 h) * cdelt2 h) emaj emin pa = Ok G.
(* the restored cube and the threshold *)
Definition restored_cube (pocket : bool) (fast : option (nat -> nat)) (o : options) (h : fits_hdr) (M : arr3 R) (G : arr2 R) : cube :=
  convolve_model pocket fast (o_padding o) (naxis2 h) (naxis1 h) M G.
Definition level (o : options) (rd : residual) (h : fits_hdr) (nband : nat) : R := o_threshold o * rms 0 nband (naxis2 h) (naxis1 h) (r_data rd).
(* a list of all the bright pixels *)
Definition lists_bright (l : list (nat * nat)) (nb : nat) (c : cube) (t : R) : Prop := NoDup l /\ forall i j, In (i, j) l <-> bright nb c t i j.
(* the number of threads: as asked for, or that of the machine when none is *)
Definition thread_count (o : options) (n : nat) : Prop := (o_ncpu o <> 0%nat /\ n = o_ncpu o) \/ (o_ncpu o = 0%nat /\ n = o_threads o).
