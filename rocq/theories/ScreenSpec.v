(* Specification vocabulary for C105. *)
From Coq Require Import Reals.
From Verif Require Import Prelude CRing CField CplxR CplxF PredictSpec CalModel CalSpec RimeSpec CoordSpec ScreenModel.
Open Scope R_scope.

(* direction cosines of a source relative to the phase centre *)
Definition cos_l (pc : R * R) (s : sky_source) : R := dot (direction (s_ra s) (s_dec s)) (east (fst pc)).
Definition cos_m (pc : R * R) (s : sky_source) : R := dot (direction (s_ra s) (s_dec s)) (north (fst pc) (snd pc)).
Definition cos_n (pc : R * R) (s : sky_source) : R := dot (direction (s_ra s) (s_dec s)) (direction (fst pc) (snd pc)).
(* the source is less than 90 degrees from the phase centre *)
Definition in_front (pc : R * R) (sky : list sky_source) : Prop := forall s, In s sky -> 0 < cos_n pc s.
(* flux at a frequency: constant without spectrum, a power law otherwise *)
Definition flux_at (s : sky_source) (nu : R) : R :=
  match s_spec s with None => s_flux s | Some (spi, nu0) => s_flux s * Rpower (nu / nu0) spi end.
(* phase due to the path difference 2 pi nu / c (l u + m v + (n - 1) w) *)
Definition path_phase (pc : R * R) (s : sky_source) (uvw : arr R) (nu : R) : R :=
  2 * PI * nu / light * (cos_l pc s * uvw 0%nat + cos_m pc s * uvw 1%nat + (cos_n pc s - 1) * uvw 2%nat).
(* the plane a0 + a1 l + a2 m over the antenna, inversely proportional to the frequency *)
Definition screen_phase (pc : R * R) (s : sky_source) (a : nat -> R) (top nu : R) : R :=
  (a 0%nat + a 1%nat * cos_l pc s + a 2%nat * cos_m pc s) * (top / nu).
Definition is_top (n : nat) (freq : arr R) (top : R) : Prop := (exists f, (f < n)%nat /\ freq f = top) /\ forall f, (f < n)%nat -> freq f <= top.
(* which of the (at most two) hands of the gains a correlation sees on both antennas; the cross hands of four see none *)
Definition hand (ncorr c : nat) : option nat :=
  if Nat.eqb ncorr 4 then match c with 0%nat => Some 0%nat | 3%nat => Some 1%nat | _ => None end else Some c.
(* x exp(i phase) *)
Definition polar (x phase : R) : RC := cmul (ofR x) (cis phase).
Definition good_corr (ncorr : nat) : Prop := ncorr = 1%nat \/ ncorr = 2%nat \/ ncorr = 4%nat.
Definition positive (nchan : nat) (freq : arr R) : Prop := forall f, (f < nchan)%nat -> 0 < freq f.
Definition all_spectra (sky : list sky_source) : Prop := forall s, In s sky -> s_spec s <> None.
Section Sums.
  Context (pc : R * R) (sky : list sky_source) (alphas : nat -> nat -> arr2 R) (top : R) (ant1 ant2 : arr nat) (uvw : arr2 R) (freq : arr R).
  (* phase of source s on the baseline of row r through the screens of hand k at time t *)
  Definition total_phase (t r f k : nat) (s : sky_source) : R :=
    screen_phase pc s (fun i => alphas t (ant1 r) i k) top (freq f) - screen_phase pc s (fun i => alphas t (ant2 r) i k) top (freq f)
    - path_phase pc s (uvw r) (freq f).
  Definition screened (t r f k : nat) : RC :=
    csum (K := RC) (length sky) (fun d => let s := nth d sky no_source in polar (flux_at s (freq f) / cos_n pc s) (total_phase t r f k s)).
  (* what is left of the data when the calibration's model is seen through the true gains *)
  Definition left_over (t r f k : nat) : RC :=
    csum (K := RC) (length sky) (fun d => let s := nth d sky no_source in polar (flux_at s (freq f) * (1 / cos_n pc s - 1)) (total_phase t r f k s)).
  (* the sources seen through given gains of one hand *)
  Definition gained (g : gain_arr RCF) (t r f k : nat) : RC :=
    csum (K := RC) (length sky) (fun d => let s := nth d sky no_source in
      cmul (cmul (j_at g t (ant1 r) f d k 0%nat) (polar (flux_at s (freq f) / cos_n pc s) (- path_phase pc s (uvw r) (freq f)))) (cconj (j_at g t (ant2 r) f d k 0%nat : RC))).
End Sums.
