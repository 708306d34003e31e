From Coq Require Import Reals String.
From Verif Require Import Prelude CRing CplxR RimeSpec DftSpec SrcModel.
Open Scope R_scope.

(* visibility of an elliptical Gaussian with unit flux, full widths at half maximum emaj and emin and
   position angle: exp (-2 pi^2 (sigma_maj^2 p^2 + sigma_min^2 q^2)), p and q the coordinates of the
   baseline in wavelengths along the two axes *)
Definition sigma (full_width : R) : R := full_width / (2 * sqrt (2 * ln 2)).
Definition envelope (emaj emin angle u v nu : R) : R :=
  let p := (u * sin angle + v * cos angle) * nu / light in
  let q := (u * cos angle - v * sin angle) * nu / light in
  exp (- (2 * PI ^ 2 * ((sigma emaj * p) ^ 2 + (sigma emin * q) ^ 2))).

(* polynomials without constant term: sum c_i x^(i+1) *)
Definition poly (n : nat) (c : nat -> R) (x : R) : R := rsum n (fun i => c i * x ^ (i + 1)).
(* spectra of wsclean components *)
Definition ordinary_flux (n : nat) (I : R) (c : nat -> R) (nu rf : R) : R := I + poly n c (nu / rf - 1).
Definition log_flux (n : nat) (I : R) (c : nat -> R) (nu rf : R) : R := I * exp (poly n c (ln (nu / rf))).
Definition component_flux (n : nat) (is_log : bool) (I : R) (c : nat -> R) (nu rf : R) : R :=
  if is_log then log_flux n I c nu rf else ordinary_flux n I c nu rf.

(* spectral models of Stokes parameters: power law, and curved spectra in natural and decimal logarithms *)
Definition power_law (n : nat) (I : R) (a : nat -> R) (nu rf : R) : R := I * Rpower (nu / rf) (rsum n a).
Definition ln_curve (n : nat) (I : R) (a : nat -> R) (nu rf : R) : R := I * exp (poly n a (ln (nu / rf))).
Definition log10_curve (n : nat) (I : R) (a : nat -> R) (nu rf : R) : R := I * Rpower 10 (poly n a (ln (nu / rf) / ln 10)).

(* the contribution of one wsclean component to a visibility *)
Definition extent (kind : string) (emaj emin angle u v nu : R) : R :=
  if String.eqb kind "POINT" then 1 else if Req_EM_T emaj 0 then 1 else envelope emaj emin angle u v nu.

(* which curve a base names, and whether it needs a positive Stokes parameter *)
Inductive curve : base1 -> bool -> (nat -> R -> (nat -> R) -> R -> R -> R) -> Prop :=
| curve_0 : curve (BInt 0) false power_law | curve_std : curve (BStr "std") false power_law
| curve_1 : curve (BInt 1) true ln_curve | curve_log : curve (BStr "log") true ln_curve
| curve_2 : curve (BInt 2) true log10_curve | curve_log10 : curve (BStr "log10") true log10_curve.
(* the base of polarisation p: a single base serves all, a list is extended with its last entry *)
Inductive base_at : base -> nat -> base1 -> Prop :=
| at_one b p : base_at (BOne b) p b
| at_list l p b : nth_error l p = Some b -> base_at (BList l) p b
| at_last l p b : (List.length l <= p)%nat -> nth_error l (List.length l - 1) = Some b -> l <> [] -> base_at (BList l) p b.

(* the logarithmic components the code accepts *)
Definition accepted (ncoeffs : nat) (is_log : bool) (I : R) (c : nat -> R) : Prop :=
  is_log = true -> 0 < I /\ forall k, (k < ncoeffs)%nat -> 0 < c k.
(* log_poly is a single flag or has one entry per source *)
Definition lp_fits (n : nat) (lp : logpoly) : Prop := match lp with LScalar _ => True | LArray k _ => k = n end.
(* the same exception, or the same values inside the extents *)
Definition agree (nsrc nchan npol : nat) (r r' : res (arr3 R)) : Prop :=
  match r, r' with
  | Ok m, Ok m' => forall s f p, (s < nsrc)%nat -> (f < nchan)%nat -> (p < npol)%nat -> m s f p = m' s f p
  | Raise e, Raise e' => e = e'
  | _, _ => False
  end.
(* a list of bases not longer than the number of polarisations *)
Definition base_fits (bs : base) (npol : nat) : Prop := match bs with BOne _ => True | BList l => (List.length l <= npol)%nat | BOther => False end.
(* the visibility of one component *)
Definition component_vis (lm uvw gauss : arr2 R) (kind : arr string) (freq : arr R) (flux : nat -> nat -> R) (r f s : nat) : RC :=
  cmul (cis (src_delay lm uvw freq s r f))
       (ofR (flux s f * extent (kind s) (gauss s 0%nat) (gauss s 1%nat) (gauss s 2%nat) (uvw r 0%nat) (uvw r 1%nat) (freq f))).
Definition known_kind (k : string) : Prop := k = "POINT"%string \/ k = "GAUSSIAN"%string.
(* the flux of component s in channel f, and the components the code accepts *)
Definition lp_at (lp : logpoly) (s : nat) : bool := match lp with LScalar b => b | LArray _ a => a s end.
Definition flux_of (ncoeffs : nat) (flux : arr R) (coeffs : arr2 R) (lp : logpoly) (rf freq : arr R) : nat -> nat -> R :=
  fun s f => component_flux ncoeffs (lp_at lp s) (flux s) (coeffs s) (freq f) (rf s).
Definition acceptable (ncoeffs : nat) (kind : arr string) (flux : arr R) (coeffs : arr2 R) (lp : logpoly) (s : nat) : Prop :=
  known_kind (kind s) /\ accepted ncoeffs (lp_at lp s) (flux s) (coeffs s).

(* sources n1, n1 + 1, ... of a list *)
Definition tail_lp (n1 n2 : nat) (lp : logpoly) : logpoly := match lp with LScalar b => LScalar b | LArray _ a => LArray n2 (fun i => a (n1 + i)%nat) end.
Definition head_lp (n1 : nat) (lp : logpoly) : logpoly := match lp with LScalar b => LScalar b | LArray _ a => LArray n1 a end.
