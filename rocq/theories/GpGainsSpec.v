(* Specification vocabulary for C109. *)
From Coq Require Import Reals.
From Verif Require Import Prelude CRing CplxR CalSpec KronModel KronSpec CoordSpec GpsSpec ScreenSpec.
Open Scope R_scope.

(* a Cholesky routine: what it returns is a factor, and it takes every positive definite symmetric matrix *)
Definition positive_definite (a : mat RR) : Prop :=
  m_r a = m_c a /\ (forall i j, m_e a i j = m_e a j i) /\
  forall x : arr R, (exists i, (i < m_r a)%nat /\ x i <> 0) -> 0 < form (m_r a) (m_e a) x.
Definition cholesky_routine (chol : mat RR -> res (mat RR)) : Prop :=
  (forall a l, chol a = Ok l -> factor_of l a) /\ (forall a, (0 < m_r a)%nat -> positive_definite a -> exists l, chol a = Ok l).
(* smallest of n numbers (is_top is the largest) *)
Definition is_bottom (n : nat) (x : arr R) (lo : R) : Prop := (exists i, (i < n)%nat /\ x i = lo) /\ forall i, (i < n)%nat -> lo <= x i.
(* the Gaussian covariance of two points at distance d: variance s^2 and length l *)
Definition gauss (s l d : R) : R := s ^ 2 * exp (- d ^ 2 / (2 * l ^ 2)).
(* covariance of two times or frequencies whose distance is measured in units of the whole range *)
Definition axis_cov (s l lo hi x y : R) : R := gauss s l (Rabs (x - y) / (hi - lo)).
(* direction cosines with respect to right ascension and declination zero *)
Definition cos_l0 (s : R * R) : R := dot (direction (fst s) (snd s)) (east 0).
Definition cos_m0 (s : R * R) : R := dot (direction (fst s) (snd s)) (north 0 0).
Definition sky_cov (s l : R) (a b : R * R) : R := gauss s l (sqrt ((cos_l0 a - cos_l0 b) ^ 2 + (cos_m0 a - cos_m0 b) ^ 2)).
(* 0, or the number added on the diagonal of a matrix that could not be decomposed *)
Definition jitter (e : R) : Prop := e = 0 \/ e = 1 / 10 ^ 13.
Definition on_diagonal (e : R) (i j : nat) : R := if Nat.eqb i j then e else 0.
Definition source (l : list (R * R)) (d : nat) : R * R := nth d l (0, 0).
(* sum over the n numbers of a noise with the coefficients a *)
Definition mixed (n : nat) (a xi : arr R) : R := csum (K := RR) n (fun k => a k * xi k).
(* one more than the largest antenna number *)
Definition number_of_antennas (nrow : nat) (ant1 ant2 : arr nat) (nant : nat) : Prop :=
  (forall r, (r < nrow)%nat -> (ant1 r < nant /\ ant2 r < nant)%nat) /\ exists r, (r < nrow)%nat /\ (S (ant1 r) = nant \/ S (ant2 r) = nant).
(* an observation that the script can handle: not all times and not all frequencies equal, at least two sources, and
   the numbers of times, channels and sources not all equal *)
Definition handled (nrow : nat) (time : arr Z) (nchan : nat) (freq : arr R) (sources : list (R * R)) (us : list Z) (t0 t1 f0 f1 : R) : Prop :=
  distinct_times nrow time us /\ is_bottom nrow (fun r => IZR (time r)) t0 /\ is_top nrow (fun r => IZR (time r)) t1 /\ t0 < t1 /\
  is_bottom nchan freq f0 /\ is_top nchan freq f1 /\ f0 < f1 /\ (2 <= length sources)%nat /\ ~ (length us = nchan /\ nchan = length sources).
