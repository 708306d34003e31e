(* C30 phase delay, C31 feed rotation, C32 source transformation *)
From Coq Require Import Reals Lra String.
From Verif Require Import Prelude CRing CplxR RimeModel RimeSpec RimeProofs.
Open Scope R_scope.

(* ---------- C30 ---------- *)
Theorem C30_phase_fourier : forall nsrc nrow nchan lm uvw frequency,
  exists k, phase_delay nsrc nrow nchan lm uvw frequency "fourier" = Ok k /\
    forall s r f, (s < nsrc)%nat -> (r < nrow)%nat -> (f < nchan)%nat ->
      k s r f = cis (- delay (lm s 0%nat) (lm s 1%nat) (uvw r 0%nat) (uvw r 1%nat) (uvw r 2%nat) (frequency f)).
Proof. exact phase_delay_fourier. Qed.
Theorem C30_phase_casa : forall nsrc nrow nchan lm uvw frequency,
  exists k, phase_delay nsrc nrow nchan lm uvw frequency "casa" = Ok k /\
    forall s r f, (s < nsrc)%nat -> (r < nrow)%nat -> (f < nchan)%nat ->
      k s r f = cis (delay (lm s 0%nat) (lm s 1%nat) (uvw r 0%nat) (uvw r 1%nat) (uvw r 2%nat) (frequency f)).
Proof. exact phase_delay_casa. Qed.
Theorem C30_unit_modulus : forall nsrc nrow nchan lm uvw frequency conv k,
  phase_delay nsrc nrow nchan lm uvw frequency conv = Ok k ->
  forall s r f, (s < nsrc)%nat -> (r < nrow)%nat -> (f < nchan)%nat -> norm2 (k s r f) = 1.
Proof. exact phase_delay_unit. Qed.
Theorem C30_conventions_conjugate : forall nsrc nrow nchan lm uvw frequency,
  exists k k', phase_delay nsrc nrow nchan lm uvw frequency "fourier" = Ok k /\
    phase_delay nsrc nrow nchan lm uvw frequency "casa" = Ok k' /\
    forall s r f, (s < nsrc)%nat -> (r < nrow)%nat -> (f < nchan)%nat -> k s r f = cconj (k' s r f).
Proof. exact phase_delay_conj. Qed.
Theorem C30_negated_uvw : forall nsrc nrow nchan lm uvw uvw' frequency conv k k',
  phase_delay nsrc nrow nchan lm uvw frequency conv = Ok k ->
  phase_delay nsrc nrow nchan lm uvw' frequency conv = Ok k' ->
  (forall r i, (r < nrow)%nat -> (i < 3)%nat -> uvw' r i = - uvw r i) ->
  forall s r f, (s < nsrc)%nat -> (r < nrow)%nat -> (f < nchan)%nat -> k' s r f = cconj (k s r f).
Proof. exact phase_delay_neg. Qed.
Theorem C30_phase_centre : forall nsrc nrow nchan lm uvw frequency conv k s,
  phase_delay nsrc nrow nchan lm uvw frequency conv = Ok k -> lm s 0%nat = 0 -> lm s 1%nat = 0 ->
  forall r f, (s < nsrc)%nat -> (r < nrow)%nat -> (f < nchan)%nat -> k s r f = c1.
Proof. exact phase_delay_centre. Qed.
Theorem C30_added_uvw : forall nsrc nrow nchan lm uvw1 uvw2 uvw frequency conv k1 k2 k,
  phase_delay nsrc nrow nchan lm uvw1 frequency conv = Ok k1 ->
  phase_delay nsrc nrow nchan lm uvw2 frequency conv = Ok k2 ->
  phase_delay nsrc nrow nchan lm uvw frequency conv = Ok k ->
  (forall r i, (r < nrow)%nat -> (i < 3)%nat -> uvw r i = uvw1 r i + uvw2 r i) ->
  forall s r f, (s < nsrc)%nat -> (r < nrow)%nat -> (f < nchan)%nat -> k s r f = cmul (k1 s r f) (k2 s r f).
Proof. exact phase_delay_add. Qed.
Theorem C30_unknown_convention : forall nsrc nrow nchan lm uvw frequency conv,
  conv <> "fourier"%string -> conv <> "casa"%string ->
  phase_delay nsrc nrow nchan lm uvw frequency conv = Raise ValueError.
Proof. exact phase_delay_unknown. Qed.
(* a quarter turn: l = 1, u = c / 4, one hertz *)
Example C30_quarter_turn :
  exists k, phase_delay 1 1 1 (fun _ i => match i with O => 1 | _ => 0 end) (fun _ i => match i with O => light / 4 | _ => 0 end) (fun _ => 1) "casa" = Ok k /\
    k 0%nat 0%nat 0%nat = ((0, 1) : RC).
Proof.
  destruct (phase_delay_casa 1 1 1 (fun _ i => match i with O => 1 | _ => 0 end) (fun _ i => match i with O => light / 4 | _ => 0 end) (fun _ => 1)) as (k & E & V).
  exists k. split; auto. rewrite V by auto.
  replace (delay _ _ _ _ _ _) with (PI / 2) by (unfold delay, light; field).
  unfold cis. now rewrite cos_PI2, sin_PI2.
Qed.

(* ---------- C31 ---------- *)
Theorem C31_linear : forall n pa g o, feed_rotation n pa true "linear" g = Ok o -> forall i, (i < n)%nat ->
  meq (mmul (o i) (mH (o i))) m_id /\ mdet (o i) = c1 /\ (forall a b, (a < 2)%nat -> (b < 2)%nat -> im (o i a b) = 0).
Proof. exact feed_linear_orthogonal. Qed.
Theorem C31_linear_entries : forall n pa g, exists o, feed_rotation n pa true "linear" g = Ok o /\
  forall i, (i < n)%nat -> o i 0%nat 0%nat = (cos (pa i), 0) /\ o i 0%nat 1%nat = (sin (pa i), 0) /\
    o i 1%nat 0%nat = (- sin (pa i), 0) /\ o i 1%nat 1%nat = (cos (pa i), 0).
Proof. exact feed_linear. Qed.
Theorem C31_linear_compose : forall n pa g o, feed_rotation n pa true "linear" g = Ok o ->
  forall i j k, (i < n)%nat -> (j < n)%nat -> (k < n)%nat -> pa k = pa i + pa j -> meq (o k) (mmul (o i) (o j)).
Proof. exact feed_linear_compose. Qed.
Theorem C31_circular : forall n pa g o, feed_rotation n pa true "circular" g = Ok o -> forall i, (i < n)%nat ->
  meq (mmul (o i) (mH (o i))) m_id /\ o i 0%nat 1%nat = c0 /\ o i 1%nat 0%nat = c0 /\
  o i 0%nat 0%nat = cis (- pa i) /\ o i 1%nat 1%nat = cis (pa i).
Proof. exact feed_circular_unitary. Qed.
Theorem C31_basis_change : forall n pa g g' o o', feed_rotation n pa true "linear" g = Ok o ->
  feed_rotation n pa true "circular" g' = Ok o' -> forall i, (i < n)%nat ->
  meq (o' i) (mmul (mmul lin_circ (o i)) (mH lin_circ)).
Proof. exact feed_basis_change. Qed.
Theorem C31_basis_change_unitary : meq (mmul lin_circ (mH lin_circ)) m_id.
Proof. exact lin_circ_unitary. Qed.
Theorem C31_invalid : forall n pa is_float t g, (t <> "linear"%string /\ t <> "circular"%string) \/ is_float = false ->
  feed_rotation n pa is_float t g = Raise ValueError.
Proof. exact feed_invalid. Qed.
Example C31_both_defined : forall g, exists o o', feed_rotation 3 (fun i => INR i) true "linear" g = Ok o /\
  feed_rotation 3 (fun i => INR i) true "circular" g = Ok o' /\ INR 2 = INR 1 + INR 1.
Proof. intros g. do 2 eexists. repeat split. Qed.

(* ---------- C32 ---------- *)
(* what the code computes: m is rotated with the already rotated l *)
Theorem C32_values : forall nsrc ntime na nchan lm pangles perr scaling frequency g,
  exists o, transform_sources nsrc ntime ntime na nchan nchan na lm pangles perr scaling frequency g = Ok o /\
  forall s t a c, (s < nsrc)%nat -> (t < ntime)%nat -> (a < na)%nat -> (c < nchan)%nat ->
    let x := pangles t a in let l := lm s 0%nat in let m := lm s 1%nat in
    o 0%nat s t a c = (rot_l x l m + perr t a 0%nat) * scaling a c /\
    o 1%nat s t a c = (rot_m x (rot_l x l m) m + perr t a 1%nat) * scaling a c /\
    o 2%nat s t a c = frequency c.
Proof. exact transform_value. Qed.
(* when the second coordinate is the rotated one *)
Theorem C32_rotates_iff : forall nsrc ntime na nchan lm pangles perr scaling frequency g o s t a c,
  transform_sources nsrc ntime ntime na nchan nchan na lm pangles perr scaling frequency g = Ok o ->
  (s < nsrc)%nat -> (t < ntime)%nat -> (a < na)%nat -> (c < nchan)%nat -> scaling a c <> 0 ->
  let x := pangles t a in let l := lm s 0%nat in let m := lm s 1%nat in
  (o 1%nat s t a c = (rot_m x l m + perr t a 1%nat) * scaling a c <-> sin x = 0 \/ rot_l x l m = l).
Proof. exact transform_rotates_iff. Qed.
Theorem C32_assertions : forall nsrc ntime pt na pn nchan nf lm pangles perr scaling frequency g,
  (ntime <> pt \/ na <> pn \/ nchan <> nf) ->
  transform_sources nsrc ntime pt pn nchan nf na lm pangles perr scaling frequency g = Raise AssertionError.
Proof. exact transform_asserts. Qed.
(* a source at (1, 0) rotated by a quarter turn, without pointing error and with unit scale: the
   code puts it at (0, 0), so neither the rotation nor the radius is right *)
Theorem C32_rotation_refuted : exists lm pangles perr scaling frequency g o,
  transform_sources 1 1 1 1 1 1 1 lm pangles perr scaling frequency g = Ok o /\
  (forall t a i, perr t a i = 0) /\ (forall a c, scaling a c = 1) /\
  o 1%nat 0%nat 0%nat 0%nat 0%nat <> rot_m (pangles 0%nat 0%nat) (lm 0%nat 0%nat) (lm 0%nat 1%nat) /\
  o 0%nat 0%nat 0%nat 0%nat 0%nat ^ 2 + o 1%nat 0%nat 0%nat 0%nat 0%nat ^ 2 <> lm 0%nat 0%nat ^ 2 + lm 0%nat 1%nat ^ 2.
Proof.
  set (lm := fun (_ i : nat) => match i with O => 1 | _ => 0 end).
  destruct (transform_value 1 1 1 1 lm (fun _ _ => PI / 2) (fun _ _ _ => 0) (fun _ _ => 1) (fun _ => 1) (fun _ _ _ _ _ => 0)) as (o & E & V).
  do 6 eexists. exists o. split; [exact E|]. split; [reflexivity|]. split; [reflexivity|].
  destruct (V 0 0 0 0)%nat as (V0 & V1 & _); auto. rewrite V0, V1. unfold lm, rot_l, rot_m. rewrite cos_PI2, sin_PI2. split; lra.
Qed.

(* ---------- C84 ---------- *)
Theorem C84_backend : forall casa astropy times positions backend,
  parallactic_angles casa astropy times positions 2 backend =
  if String.eqb backend "casa" then casa else if String.eqb backend "astropy" then astropy
  else if String.eqb backend "test" then Ok (fun t a => times t * (positions a 0%nat + positions a 1%nat + positions a 2%nat))
  else Raise ValueError.
Proof.
  intros. unfold parallactic_angles. cbn [Nat.eqb negb].
  destruct (String.eqb_spec backend "casa") as [->|]; [reflexivity|].
  destruct (String.eqb_spec backend "astropy") as [->|]; [reflexivity|].
  destruct (String.eqb_spec backend "test") as [->|]; reflexivity.
Qed.
Theorem C84_field_centre : forall casa astropy times positions fc backend, fc <> 2%nat ->
  parallactic_angles casa astropy times positions fc backend = Raise ValueError.
Proof.
  intros. unfold parallactic_angles. destruct (negb _); auto. destruct (Nat.eqb_spec fc 2); [contradiction|]. reflexivity.
Qed.
Example C84_astropy : forall casa a, parallactic_angles casa (Ok a) (fun _ => 0) (fun _ _ => 0) 2 "astropy" = Ok a.
Proof. reflexivity. Qed.

Print Assumptions C30_phase_fourier.
Print Assumptions C30_phase_casa.
Print Assumptions C30_unit_modulus.
Print Assumptions C30_conventions_conjugate.
Print Assumptions C30_negated_uvw.
Print Assumptions C30_phase_centre.
Print Assumptions C30_added_uvw.
Print Assumptions C30_unknown_convention.
Print Assumptions C31_linear.
Print Assumptions C31_linear_entries.
Print Assumptions C31_linear_compose.
Print Assumptions C31_circular.
Print Assumptions C31_basis_change.
Print Assumptions C31_basis_change_unitary.
Print Assumptions C31_invalid.
Print Assumptions C32_values.
Print Assumptions C32_rotates_iff.
Print Assumptions C32_assertions.
Print Assumptions C32_rotation_refuted.
Print Assumptions C84_backend.
Print Assumptions C84_field_centre.
