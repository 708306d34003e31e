(* C109: the script that draws phase-only gains from a Gaussian process over time, frequency and direction. *)
From Coq Require Import Reals Lra Lia Sorting.Sorted.
From Verif Require Import Prelude CRing CplxR CalSpec KronModel KronSpec CoordSpec GpsSpec ScreenSpec GpGainsModel GpGainsSpec GpGainsProofs GpGainsProofs2 GpGainsProofs3.
Open Scope R_scope.

(* Every gain is exp(i phase), where the phases of one antenna and correlation are linear combinations of its own
   independent normal numbers, with the same coefficients for every antenna and correlation and whatever the noise.  The
   covariance of two phases, which is the sum of the products of their coefficients, is the product of a Gaussian of the
   time between them (1/4, 1/5 of the observation), of the difference in frequency (1, 1/4 of the band) and of the
   distance in l and m (1, 1/2); up to 1e-13 on the diagonals of the three factors. *)
Theorem C109_phases : forall chol nrow time ant1 ant2 nchan freq sources us t0 t1 f0 f1 nant,
  cholesky_routine chol -> handled nrow time nchan freq sources us t0 t1 f0 f1 -> number_of_antennas nrow ant1 ant2 nant ->
  let nt := length us in let nd := length sources in let N := (nt * nchan * nd)%nat in
  exists et ef ed (A : nat -> nat -> nat -> arr R), jitter et /\ jitter ef /\ jitter ed /\
    (forall t f d t' f' d', (t < nt)%nat -> (f < nchan)%nat -> (d < nd)%nat -> (t' < nt)%nat -> (f' < nchan)%nat -> (d' < nd)%nat ->
       mixed N (A t f d) (A t' f' d') =
         (axis_cov (1 / 4) (1 / 5) t0 t1 (IZR (nth t us 0%Z)) (IZR (nth t' us 0%Z)) + on_diagonal et t t') *
         (axis_cov 1 (1 / 4) f0 f1 (freq f) (freq f') + on_diagonal ef f f') *
         (sky_cov 1 (1 / 2) (source sources d) (source sources d') + on_diagonal ed d d')) /\
    forall noise, exists out, phase_only_gains chol nrow time ant1 ant2 nchan freq sources noise = Ok (nt, nant, nchan, nd, out) /\
      forall t p f d c, (t < nt)%nat -> (p < nant)%nat -> (f < nchan)%nat -> (d < nd)%nat -> (c < 2)%nat ->
        out t p f d c = cis (mixed N (A t f d) (noise p c)).
Proof. exact phases_main. Qed.
(* Whatever the Cholesky routine returns, the gains change phases only. *)
Theorem C109_unit_modulus : forall chol nrow time ant1 ant2 nchan freq sources noise nt na nf nd out,
  phase_only_gains chol nrow time ant1 ant2 nchan freq sources noise = Ok (nt, na, nf, nd, out) -> forall t p f d c, norm2 (out t p f d c) = 1.
Proof. exact unit_main. Qed.
(* What is refused; NaNs stands for gains or a covariance without value.  Of note: as many times as channels as sources. *)
Theorem C109_refused : forall chol nrow time ant1 ant2 nchan freq sources noise us, distinct_times nrow time us ->
  (nrow = 0%nat -> phase_only_gains chol nrow time ant1 ant2 nchan freq sources noise = Raise ValueError) /\
  ((0 < nrow)%nat -> nchan = 0%nat -> phase_only_gains chol nrow time ant1 ant2 nchan freq sources noise = Raise ValueError) /\
  ((0 < nrow)%nat -> (0 < nchan)%nat -> (length sources < 2)%nat -> phase_only_gains chol nrow time ant1 ant2 nchan freq sources noise = Raise TypeError) /\
  ((0 < nrow)%nat -> (2 <= length sources)%nat -> length us = nchan -> nchan = length sources -> phase_only_gains chol nrow time ant1 ant2 nchan freq sources noise = Raise TypeError) /\
  ((0 < nrow)%nat -> (0 < nchan)%nat -> (2 <= length sources)%nat -> ~ (length us = nchan /\ nchan = length sources) ->
     (forall r r', (r < nrow)%nat -> (r' < nrow)%nat -> time r = time r') \/ (forall f f', (f < nchan)%nat -> (f' < nchan)%nat -> freq f = freq f') ->
     phase_only_gains chol nrow time ant1 ant2 nchan freq sources noise = Raise NaNs).
Proof. exact refused_main. Qed.
(* Distances are not measured on the sky but in the plane of right ascension and declination zero: two sources at
   mirrored right ascensions, up to opposite points of the sky, have the same phases up to a variance of 1e-13, of which
   each alone has at least 1/16. *)
Theorem C109_sky_distance_refuted : forall chol nrow time ant1 ant2 nchan freq sources us t0 t1 f0 f1 nant d d',
  cholesky_routine chol -> handled nrow time nchan freq sources us t0 t1 f0 f1 -> number_of_antennas nrow ant1 ant2 nant ->
  (d < length sources)%nat -> (d' < length sources)%nat -> d <> d' ->
  fst (source sources d') = PI - fst (source sources d) -> snd (source sources d') = snd (source sources d) ->
  let nt := length us in let nd := length sources in let N := (nt * nchan * nd)%nat in
  exists A : nat -> nat -> nat -> arr R,
    (forall t f, (t < nt)%nat -> (f < nchan)%nat -> mixed N (A t f d) (A t f d) >= 1 / 16 /\
       mixed N (fun k => A t f d k - A t f d' k) (fun k => A t f d k - A t f d' k) <= 1 / 10 ^ 13) /\
    forall noise, exists out, phase_only_gains chol nrow time ant1 ant2 nchan freq sources noise = Ok (nt, nant, nchan, nd, out) /\
      forall t p f e c, (t < nt)%nat -> (p < nant)%nat -> (f < nchan)%nat -> (e < nd)%nat -> (c < 2)%nat ->
        out t p f e c = cis (mixed N (A t f e) (noise p c)).
Proof. exact mirror_main. Qed.

(* ---------- non-vacuity ---------- *)
(* there is a Cholesky routine over the real numbers *)
Example C109_ex_routine : cholesky_routine exact_cholesky.
Proof. exact exact_cholesky_routine. Qed.
(* three rows at two times, two channels, three sources of which the first two are opposite points of the sky *)
Example C109_ex_case : let sources := [(0, 0); (PI, 0); (0, PI / 2)] in
  handled 3 (fun r => match r with 2%nat => 5%Z | _ => 3%Z end) 2 (fun f => INR f) sources [3; 5]%Z 3 5 0 1 /\
  number_of_antennas 3 (fun r => r) (fun r => S r) 4 /\
  fst (source sources 1) = PI - fst (source sources 0) /\ snd (source sources 1) = snd (source sources 0) /\
  dot (direction (fst (source sources 0)) (snd (source sources 0))) (direction (fst (source sources 1)) (snd (source sources 1))) = -1.
Proof.
  cbv zeta. repeat apply conj.
  - repeat constructor; lia.
  - intros x. cbn. split; [intros [<-|[<-|[]]]; [exists 0%nat|exists 2%nat]; split; auto; lia|].
    intros (r & R & <-). destruct r as [|[|[|]]]; auto; lia.
  - exists 0%nat. split; [lia|reflexivity].
  - intros [|[|[|i]]] I; try lia; lra.
  - exists 2%nat. split; [lia|reflexivity].
  - intros [|[|[|i]]] I; try lia; lra.
  - lra.
  - exists 0%nat. split; [lia|reflexivity].
  - intros i _. apply pos_INR.
  - exists 1%nat. split; [lia|reflexivity].
  - intros [|[|i]] I; try lia; cbn; lra.
  - lra.
  - cbn. lia.
  - cbn. lia.
  - intros r R. lia.
  - exists 2%nat. split; [lia|]. now right.
  - cbn. ring.
  - reflexivity.
  - unfold dot, direction, source. cbn [nth fst snd]. rewrite cos_0, sin_0, cos_PI, sin_PI. ring.
Qed.

Print Assumptions C109_phases.
Print Assumptions C109_unit_modulus.
Print Assumptions C109_refused.
Print Assumptions C109_sky_distance_refuted.
