(* C64: direction cosines *)
From Coq Require Import Reals Lra.
From Verif Require Import Prelude CoordModel CoordSpec CoordProofs.
Open Scope R_scope.

(* l, m and n are the components of the source direction to the east, to the north and (up to sign) towards the centre. *)
Theorem C64_components : forall n radec pc s, (s < n)%nat -> exists out, radec_to_lmn n 2 radec pc = Ok out /\
  let ra0 := fst (centre pc) in let dec0 := snd (centre pc) in
  out s 0%nat = dot (direction (radec s 0%nat) (radec s 1%nat)) (east ra0) /\
  out s 1%nat = dot (direction (radec s 0%nat) (radec s 1%nat)) (north ra0 dec0) /\
  out s 2%nat = Rabs (dot (direction (radec s 0%nat) (radec s 1%nat)) (direction ra0 dec0)).
Proof. exact lmn_rows. Qed.
Theorem C64_lm_components : forall n radec pc s, (s < n)%nat -> exists out, radec_to_lm n 2 radec pc = Ok out /\
  let ra0 := fst (centre pc) in let dec0 := snd (centre pc) in
  out s 0%nat = dot (direction (radec s 0%nat) (radec s 1%nat)) (east ra0) /\
  out s 1%nat = dot (direction (radec s 0%nat) (radec s 1%nat)) (north ra0 dec0).
Proof. exact lm_rows. Qed.
Theorem C64_unit_sphere : forall n radec pc s, (s < n)%nat ->
  exists out, radec_to_lmn n 2 radec pc = Ok out /\ out s 0%nat ^ 2 + out s 1%nat ^ 2 + out s 2%nat ^ 2 = 1 /\ 0 <= out s 2%nat.
Proof. exact lmn_unit. Qed.
(* Within 90 degrees of the centre and with right ascensions less than 90 degrees apart the conversions are inverse. *)
Theorem C64_round_trip : forall n radec pc s, (s < n)%nat ->
  let ra0 := fst (centre pc) in let dec0 := snd (centre pc) in
  - (PI / 2) < radec s 1%nat < PI / 2 -> - (PI / 2) < radec s 0%nat - ra0 < PI / 2 -> 0 <= dot (direction (radec s 0%nat) (radec s 1%nat)) (direction ra0 dec0) ->
  exists lmn back, radec_to_lmn n 2 radec pc = Ok lmn /\ lmn_to_radec n 3 lmn pc = Ok back /\ back s 0%nat = radec s 0%nat /\ back s 1%nat = radec s 1%nat.
Proof. exact lmn_round_trip. Qed.
Theorem C64_lm_round_trip : forall n radec pc s, (s < n)%nat ->
  let ra0 := fst (centre pc) in let dec0 := snd (centre pc) in
  - (PI / 2) < radec s 1%nat < PI / 2 -> - (PI / 2) < radec s 0%nat - ra0 < PI / 2 -> 0 <= dot (direction (radec s 0%nat) (radec s 1%nat)) (direction ra0 dec0) ->
  exists lm back, radec_to_lm n 2 radec pc = Ok lm /\ lm_to_radec n 2 lm pc = Ok back /\ back s 0%nat = radec s 0%nat /\ back s 1%nat = radec s 1%nat.
Proof. exact lm_round_trip. Qed.
(* From direction cosines to the sky and back, on the near side of the pole. *)
Theorem C64_lm_inverse : forall n lm pc s, (s < n)%nat ->
  let dec0 := snd (centre pc) in let l := lm s 0%nat in let m := lm s 1%nat in
  l ^ 2 + m ^ 2 <= 1 -> 0 < sqrt (1 - l ^ 2 - m ^ 2) * cos dec0 - m * sin dec0 ->
  exists radec back, lm_to_radec n 2 lm pc = Ok radec /\ radec_to_lm n 2 radec pc = Ok back /\ back s 0%nat = l /\ back s 1%nat = m.
Proof. exact lm_inverse. Qed.
(* A source across the pole, though within 90 degrees of the centre, comes back half a turn away. *)
Theorem C64_across_pole_refuted : forall n radec pc s, (s < n)%nat ->
  let ra0 := fst (centre pc) in let dec0 := snd (centre pc) in
  - (PI / 2) < radec s 1%nat < PI / 2 -> PI / 2 < radec s 0%nat - ra0 < 3 * (PI / 2) -> 0 <= dot (direction (radec s 0%nat) (radec s 1%nat)) (direction ra0 dec0) ->
  exists lmn back, radec_to_lmn n 2 radec pc = Ok lmn /\ lmn_to_radec n 3 lmn pc = Ok back /\ back s 0%nat = radec s 0%nat - PI.
Proof. exact lmn_half_turn. Qed.
(* A source more than 90 degrees away gets n of the wrong sign. *)
Theorem C64_behind_refuted : forall n radec pc s, (s < n)%nat -> dot (direction (radec s 0%nat) (radec s 1%nat)) (direction (fst (centre pc)) (snd (centre pc))) < 0 ->
  exists out, radec_to_lmn n 2 radec pc = Ok out /\ out s 2%nat = - dot (direction (radec s 0%nat) (radec s 1%nat)) (direction (fst (centre pc)) (snd (centre pc))).
Proof. exact behind_mirrored. Qed.
(* Chunking the sources does not change any of the four conversions. *)
Theorem C64_chunks : forall sources x pc s c, (s < list_sum sources)%nat ->
  ((c < 3)%nat -> exists out, radec_to_lmn (list_sum sources) 2 x pc = Ok out /\ dask_coords radec_to_lmn sources 2 x pc s c = Ok (out s c)) /\
  ((c < 2)%nat -> exists out, radec_to_lm (list_sum sources) 2 x pc = Ok out /\ dask_coords radec_to_lm sources 2 x pc s c = Ok (out s c)) /\
  ((c < 2)%nat -> exists out, lmn_to_radec (list_sum sources) 3 x pc = Ok out /\ dask_coords lmn_to_radec sources 3 x pc s c = Ok (out s c)) /\
  ((c < 2)%nat -> exists out, lm_to_radec (list_sum sources) 2 x pc = Ok out /\ dask_coords lm_to_radec sources 2 x pc s c = Ok (out s c)).
Proof.
  intros sources x pc s c Hs. split; [|split; [|split]]; intros Hc.
  - now apply (local_chunks _ _ _ local_lmn).
  - now apply (local_chunks _ _ _ local_lm).
  - now apply (local_chunks _ _ _ local_lmn_back).
  - now apply (local_chunks _ _ _ local_lm_back).
Qed.
Theorem C64_shapes : forall n k x pc,
  (k <> 2 -> radec_to_lmn n k x pc = Raise ValueError /\ radec_to_lm n k x pc = Raise ValueError /\ lm_to_radec n k x pc = Raise ValueError)%nat /\
  (k <> 3 -> lmn_to_radec n k x pc = Raise ValueError)%nat.
Proof. exact bad_shape. Qed.
Print Assumptions C64_components.
Print Assumptions C64_lm_components.
Print Assumptions C64_unit_sphere.
Print Assumptions C64_round_trip.
Print Assumptions C64_lm_round_trip.
Print Assumptions C64_lm_inverse.
Print Assumptions C64_across_pole_refuted.
Print Assumptions C64_behind_refuted.
Print Assumptions C64_chunks.
Print Assumptions C64_shapes.
(* a source at (PI/4, PI/4) seen from (0, 0): within the hypotheses of the round trip *)
Example ex_near : - (PI / 2) < PI / 4 < PI / 2 /\ 0 <= dot (direction (PI / 4) (PI / 4)) (direction 0 0).
Proof.
  pose proof PI_RGT_0. split; [lra|]. unfold dot, direction. rewrite sin_0, cos_0.
  assert (0 < cos (PI / 4)) by (apply cos_gt_0; lra). nra.
Qed.
(* a source at declination PI/4, right ascension PI, seen from the pole: the hypotheses of the refutation *)
Example ex_pole : PI / 2 < PI - 0 < 3 * (PI / 2) /\ 0 <= dot (direction PI (PI / 4)) (direction 0 (PI / 2)).
Proof.
  pose proof PI_RGT_0. split; [lra|]. unfold dot, direction. rewrite cos_PI2, sin_PI2.
  assert (0 < sin (PI / 4)) by (apply sin_gt_0; lra). nra.
Qed.
(* the antipode of the centre *)
Example ex_behind : dot (direction PI 0) (direction 0 0) < 0.
Proof. unfold dot, direction. rewrite cos_PI, sin_PI, cos_0, sin_0. lra. Qed.
