(* C115: phase delays and direct Fourier transforms in floating point. *)
From Coq Require Import Reals Lra Lia String.
From Flocq Require Import Core.
From Verif Require Import Prelude CRing CplxR RimeModel RimeSpec DftModel DftSpec RoundModel RoundSpec RdftModel RdftSpec RdftProofs RdftProofs2 RdftProofs3 RdftProofs4.
From Verif Require RoundProofs4.
Open Scope R_scope.

(* With exact operations these are the functions of C30 and C47. *)
Theorem C115_exact : (forall nsrc nrow nchan lm uvw freq conv,
    phase_delay_in exact_ops nsrc nrow nchan lm uvw freq conv = phase_delay nsrc nrow nchan lm uvw freq conv) /\
  (forall nrows nsrc nchan ncorr image uvw lm freq conv,
    im_to_vis_in exact_ops nrows nsrc nchan ncorr image uvw lm freq conv = im_to_vis nrows nsrc nchan ncorr image uvw lm freq conv) /\
  (forall nrows nsrc nchan ncorr vis uvw lm freq flags conv,
    vis_to_im_in exact_ops nrows nsrc nchan ncorr vis uvw lm freq flags conv = vis_to_im nrows nsrc nchan ncorr true vis uvw lm freq flags conv).
Proof. exact (conj exact_phase (conj exact_im_to_vis exact_vis_to_im)). Qed.

(* Every phase delay of a source above the horizon, in both sign conventions. *)
Theorem C115_phase_delay fl u fcos fsin e c uc nsrc nrow nchan lm uvw freq conv k : roundoff fl u -> trig_error fcos fsin e -> constant_error c uc ->
  phase_delay_in (rounded_ops fl fcos fsin c) nsrc nrow nchan lm uvw freq conv = Ok k ->
  exists sgn, im_sign conv sgn /\ forall s r f, (s < nsrc)%nat -> (r < nrow)%nat -> (f < nchan)%nat -> above_horizon lm s ->
    within (delay_error u uc e lm uvw freq s r f) (k s r f) (cis (sgn * src_delay lm uvw freq s r f)).
Proof. intros Hu He Hc. exact (phase_delay_error fl u Hu fcos fsin e He c uc Hc nsrc nrow nchan lm uvw freq conv k). Qed.
(* The constants that the theorem asks for: 2 * np.pi / c as stored, correctly rounded cosines and sines. *)
Theorem C115_constants fl u : roundoff fl u ->
  constant_error (fl (fl (2 * fl PI) / light)) (gamma u 3) /\ trig_error (fun x => fl (cos x)) (fun x => fl (sin x)) u.
Proof. intros Hu. exact (conj (stored_constant fl u Hu) (rounded_trig fl u Hu)). Qed.
(* In numbers, for double precision. *)
Theorem C115_double e lm uvw freq s r f : e <= / 10 ^ 9 ->
  Rabs (lm s 0%nat) <= / 10 -> Rabs (lm s 1%nat) <= / 10 -> (forall i, (i < 3)%nat -> Rabs (uvw r i) <= 10000) -> Rabs (freq f) <= 2000000000 ->
  delay_error (/ 2 ^ 53) (gamma (/ 2 ^ 53) 3) e lm uvw freq s r f <= / 10 ^ 8.
Proof. exact (delay_in_numbers e lm uvw freq s r f). Qed.

(* The square root is taken of a positive number for sources that are not too near the horizon, *)
Theorem C115_radicand fl u fcos fsin c l m : roundoff fl u -> l * l + m * m < 1 -> 2 * gamma u 3 < 1 - l * l - m * m ->
  0 < radicand (rounded_ops fl fcos fsin c) l m.
Proof. intros Hu. exact (radicand_positive fl u Hu fcos fsin c l m). Qed.
(* but not for all that are above it: in double precision there is one with a negative radicand, and so NaN. *)
Theorem C115_horizon_refuted : ~ (forall l m, generic_format radix2 (FLX_exp 53) l -> generic_format radix2 (FLX_exp 53) m -> l * l + m * m < 1 ->
  0 <= radicand (rounded_ops (nearest 53) (fun x => nearest 53 (cos x)) (fun x => nearest 53 (sin x)) (nearest 53 (nearest 53 (2 * nearest 53 PI) / light))) l m).
Proof. exact horizon. Qed.

(* Image to visibilities and back. *)
Theorem C115_im_to_vis fl u fcos fsin e c uc nrows nsrc nchan ncorr (image : arr3 RC) uvw lm freq conv V :
  roundoff fl u -> trig_error fcos fsin e -> constant_error c uc ->
  im_to_vis_in (rounded_ops fl fcos fsin c) nrows nsrc nchan ncorr image uvw lm freq conv = Ok V ->
  (forall s, (s < nsrc)%nat -> above_horizon lm s) ->
  exists sgn, im_sign conv sgn /\ forall r f i, (r < nrows)%nat -> (f < nchan)%nat -> (i < ncorr)%nat ->
    let d s := delay_error u uc e lm uvw freq s r f in
    within (rsum nsrc (fun s => (d s + gamma u (nsrc + 2) * (1 + d s)) * size (image s f i)))
      (V r f i) (csum nsrc (fun s => cmul (cis (sgn * src_delay lm uvw freq s r f)) (image s f i))).
Proof. intros Hu He Hc. exact (im_to_vis_error fl u Hu fcos fsin e He c uc Hc nrows nsrc nchan ncorr image uvw lm freq conv V). Qed.
Theorem C115_vis_to_im fl u fcos fsin e c uc nrows nsrc nchan ncorr (vis W : arr3 RC) uvw lm freq flags conv img :
  roundoff fl u -> trig_error fcos fsin e -> constant_error c uc ->
  vis_to_im_in (rounded_ops fl fcos fsin c) nrows nsrc nchan ncorr vis uvw lm freq flags conv = Ok img ->
  unflagged_part ncorr flags vis W ->
  exists sgn, im_sign conv sgn /\ forall s f i, (s < nsrc)%nat -> (f < nchan)%nat -> (i < ncorr)%nat -> above_horizon lm s ->
    let d r := delay_error u uc e lm uvw freq s r f in
    Rabs (img s f i - rsum nrows (fun r => re (cmul (cconj (cis (sgn * src_delay lm uvw freq s r f))) (W r f i)))) <=
      rsum nrows (fun r => (d r + gamma u (nrows + 2) * (1 + d r)) * size (W r f i)).
Proof. intros Hu He Hc. exact (vis_to_im_error fl u Hu fcos fsin e He c uc Hc nrows nsrc nchan ncorr vis W uvw lm freq flags conv img). Qed.

(* Double precision, a source at l = m = 1/20 seen on one baseline at 1 GHz: all hypotheses hold, and the phase delay has eight digits. *)
Example one_source : exists k, phase_delay_in (rounded_ops (nearest 53) (fun x => nearest 53 (cos x)) (fun x => nearest 53 (sin x)) (nearest 53 (nearest 53 (2 * nearest 53 PI) / light)))
    1 1 1 (fun _ _ => / 20) (fun _ _ => 1000) (fun _ => 1000000000) "fourier" = Ok k /\
  within (/ 10 ^ 8) (k 0 0 0)%nat (cis (- src_delay (fun _ _ => / 20) (fun _ _ => 1000) (fun _ => 1000000000) 0 0 0)).
Proof.
  eexists. split; [reflexivity|].
  destruct (C115_constants _ _ RoundProofs4.nearest_53) as [Hc He].
  destruct (C115_phase_delay _ _ _ _ _ _ _ 1 1 1 (fun _ _ => / 20) (fun _ _ => 1000) (fun _ => 1000000000) "fourier" _ RoundProofs4.nearest_53 He Hc eq_refl) as (sgn & S & H).
  specialize (H 0%nat 0%nat 0%nat ltac:(lia) ltac:(lia) ltac:(lia)). inversion S; subst.
  destruct H as [H1 H2]; [unfold above_horizon; lra|].
  pose proof (C115_double (/ 2 ^ 53) (fun _ _ => / 20) (fun _ _ => 1000) (fun _ => 1000000000) 0 0 0 ltac:(lra)
    ltac:(rewrite Rabs_pos_eq; lra) ltac:(rewrite Rabs_pos_eq; lra) ltac:(intros; rewrite Rabs_pos_eq; lra) ltac:(rewrite Rabs_pos_eq; lra)) as D.
  replace (-1 * src_delay (fun _ _ : nat => / 20) (fun _ _ : nat => 1000) (fun _ : nat => 1000000000) 0 0 0)
    with (- src_delay (fun _ _ : nat => / 20) (fun _ _ : nat => 1000) (fun _ : nat => 1000000000) 0 0 0) in H1, H2 by ring.
  split; eapply Rle_trans; [exact H1|exact D|exact H2|exact D].
Qed.

Print Assumptions C115_exact.
Print Assumptions C115_phase_delay.
Print Assumptions C115_constants.
Print Assumptions C115_double.
Print Assumptions C115_radicand.
Print Assumptions C115_horizon_refuted.
Print Assumptions C115_im_to_vis.
Print Assumptions C115_vis_to_im.
