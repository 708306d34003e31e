(* C68, C69: moving visibilities and baselines to a facet centre *)
From Coq Require Import String Reals Lra Ranalysis.
From Verif Require Import Prelude PreludeFacts CRing CplxR CoordSpec FacetModel FacetSpec FacetProofs.
Close Scope string_scope.
Open Scope R_scope.

(* for facets in the hemisphere of the phase centre, every visibility is multiplied by exp (2 pi i s b.(facet - centre) / lambda) *)
Theorem C68_factor : forall nchan vis uvw r lambdas ra0 dec0 ra dec s c k, (c < nchan)%nat -> 0 <= ncos ra0 dec0 ra dec ->
  phase_rotate nchan vis uvw r lambdas ra0 dec0 ra dec s c k =
  cmul (vis c k) (cis (s * 2 * PI * (uvw (comp r 0) * lcos ra0 dec0 ra dec + uvw (comp r 1) * mcos ra0 dec0 ra dec +
    uvw (comp r 2) * (ncos ra0 dec0 ra dec - 1)) / lambdas c)).
Proof. exact phase_factor. Qed.
Print Assumptions C68_factor.
(* the modulus never changes *)
Theorem C68_modulus : forall nchan vis uvw r lambdas ra0 dec0 ra dec s c k,
  norm2 (phase_rotate nchan vis uvw r lambdas ra0 dec0 ra dec s c k) = norm2 (vis c k).
Proof. exact phase_modulus. Qed.
Print Assumptions C68_modulus.
(* the opposite sign undoes it *)
Theorem C68_undo : forall nchan vis uvw r lambdas ra0 dec0 ra dec s c k,
  phase_rotate nchan (phase_rotate nchan vis uvw r lambdas ra0 dec0 ra dec s) uvw r lambdas ra0 dec0 ra dec (- s) c k = vis c k.
Proof. exact phase_undo. Qed.
Print Assumptions C68_undo.
(* a facet at the phase centre changes nothing *)
Theorem C68_same_centre : forall nchan vis uvw r lambdas ra dec s c k, phase_rotate nchan vis uvw r lambdas ra dec ra dec s c k = vis c k.
Proof. exact phase_same. Qed.
Print Assumptions C68_same_centre.
(* behind the phase centre the factor is not the one of C68_factor *)
Theorem C68_behind_refuted : exists vis uvw r lambdas ra0 dec0 ra dec s c k, (c < 1)%nat /\ 0 < lambdas c /\
  phase_rotate 1 vis uvw r lambdas ra0 dec0 ra dec s c k <>
  cmul (vis c k) (cis (s * 2 * PI * (uvw (comp r 0) * lcos ra0 dec0 ra dec + uvw (comp r 1) * mcos ra0 dec0 ra dec +
    uvw (comp r 2) * (ncos ra0 dec0 ra dec - 1)) / lambdas c)).
Proof.
  exists (fun _ _ => c1), (fun _ => / 4), O, (fun _ => 1), 0, 0, PI, (- 0), 1, O, O. split; [lia|]. split; [lra|]. rewrite phase_far.
  assert (E1 : lcos 0 0 PI (- 0) = 0) by (unfold lcos, dot, direction, east; rewrite sin_0, cos_0, sin_PI, cos_PI; ring).
  assert (E2 : mcos 0 0 PI (- 0) = 0) by (unfold mcos, dot, direction, north; rewrite cos_neg, sin_neg, sin_0, cos_0, sin_PI, cos_PI; ring).
  assert (E3 : ncos 0 0 PI (- 0) = -1) by (unfold ncos, dot, direction; rewrite cos_neg, sin_neg, sin_0, cos_0, sin_PI, cos_PI; ring).
  rewrite E1, E2, E3. replace (1 * 2 * PI * (/ 4 * 0 + / 4 * 0 + / 4 * (-1 - 1)) / 1) with (- PI) by field.
  unfold cis. rewrite cos_neg, cos_PI, sin_neg, sin_PI. intros E. apply (f_equal re) in E. unfold re in E. cbn in E. lra.
Qed.
Print Assumptions C68_behind_refuted.
(* the policies: no rotation, rotation, anything else is refused *)
Theorem C68_policies : forall p,
  match phase_policy p with
  | Ok f => (p = None \/ p = Some "None"%string) /\ (forall n vis uvw r l a b c d s, f n vis uvw r l a b c d s = vis) \/
            p = Some "phase_rotate"%string /\ f = phase_rotate
  | Raise e => e = ValueError /\ p <> None /\ p <> Some "None"%string /\ p <> Some "phase_rotate"%string
  end.
Proof.
  intros [p|]; cbn; [|left; auto]. destruct (String.eqb_spec p "None") as [->|N]; [left; auto|].
  destruct (String.eqb_spec p "phase_rotate") as [->|N']; [right; auto|]. repeat split; congruence.
Qed.
Print Assumptions C68_policies.

(* the matrix of the rotate policy is the documented product T (new) T (old)^T, and a rotation *)
Theorem C69_matrix : forall ra0 dec0 ra dec i j, (i < 3)%nat -> (j < 3)%nat ->
  rot_matrix ra0 dec0 ra dec i j = mul_t (T ra dec) (T ra0 dec0) i j /\
  mul_t (rot_matrix ra0 dec0 ra dec) (rot_matrix ra0 dec0 ra dec) i j = identity i j.
Proof. intros. split; [now apply matrix_spec|now apply matrix_orthogonal]. Qed.
Print Assumptions C69_matrix.
(* but the policy does not apply it: the length of a baseline changes, even when the element after w equals w *)
Theorem C69_rotate_length_refuted : exists uvw r ra0 dec0 ra dec, uvw (comp r 3) = uvw (comp r 2) /\
  let out := uvw_rotate uvw r ra0 dec0 ra dec in
  out (comp r 0) ^ 2 + out (comp r 1) ^ 2 + out (comp r 2) ^ 2 <> uvw (comp r 0) ^ 2 + uvw (comp r 1) ^ 2 + uvw (comp r 2) ^ 2.
Proof.
  exists (upd (fun _ => 0) 0%nat 1), O, 0, 0, (PI / 2), 0. split; [reflexivity|]. cbv zeta.
  destruct (rotate_values (upd (fun _ => 0) 0%nat 1) 0 0 0 (PI / 2) 0) as (E0 & E1 & E2). cbv zeta in E0, E1, E2. rewrite E0, E1, E2. clear.
  unfold rot_matrix, comp, upd. cbn. rewrite Rminus_0_r, sin_PI2, cos_PI2, sin_0, cos_0. intros E. ring_simplify in E. lra.
Qed.
Print Assumptions C69_rotate_length_refuted.
(* w never enters: with the same centre u and v stay and w becomes the next element in memory, the u of the following row *)
Theorem C69_rotate_reads_outside : forall uvw r ra dec, let out := uvw_rotate uvw r ra dec ra dec in
  out (comp r 0) = uvw (comp r 0) /\ out (comp r 1) = uvw (comp r 1) /\ out (comp r 2) = uvw (comp (r + 1) 0).
Proof.
  intros uvw r ra dec. cbv zeta. destruct (rotate_values uvw r ra dec ra dec) as (E0 & E1 & E2). cbv zeta in E0, E1, E2. rewrite E0, E1, E2. clear.
  replace (comp r 3) with (comp (r + 1) 0) by (unfold comp; lia).
  unfold rot_matrix. replace (ra - ra) with 0 by ring. rewrite sin_0, cos_0. generalize (pyth dec). intros H.
  assert (X : sin dec * sin dec * 1 + cos dec * cos dec = 1) by lra.
  repeat split; [ring| |]; rewrite X; replace (- cos dec * sin dec * 1 + cos dec * sin dec) with 0 by ring.
  - ring.
  - replace (- cos dec * sin dec * 1 + sin dec * cos dec) with 0 by ring. replace (cos dec * cos dec * 1 + sin dec * sin dec) with 1 by lra. ring.
Qed.
Print Assumptions C69_rotate_reads_outside.
(* the linear approximation of w replaces u and v by the derivatives of the path difference at the facet centre, and keeps w *)
Theorem C69_wlinapprox : forall uvw r ra0 dec0 ra dec, 0 < ncos ra0 dec0 ra dec ->
  let out := uvw_planarwapprox uvw r ra0 dec0 ra dec in
  let l0 := lcos ra0 dec0 ra dec in let m0 := mcos ra0 dec0 ra dec in
  derivable_pt_lim (fun l => path (uvw (comp r 0)) (uvw (comp r 1)) (uvw (comp r 2)) l m0) l0 (out (comp r 0)) /\
  derivable_pt_lim (fun m => path (uvw (comp r 0)) (uvw (comp r 1)) (uvw (comp r 2)) l0 m) m0 (out (comp r 1)) /\
  out (comp r 2) = uvw (comp r 2).
Proof.
  intros uvw r ra0 dec0 ra dec H. destruct (planar_gradient uvw r ra0 dec0 ra dec H). destruct (planar_values uvw r ra0 dec0 ra dec) as (_ & _ & E).
  cbv zeta in *. auto.
Qed.
Print Assumptions C69_wlinapprox.
(* every policy changes at most the row it is given; other names are refused *)
Theorem C69_policies : forall p,
  match baseline_policy p with
  | Ok f => In p ["None"; "rotate"; "wlinapprox"]%string /\
            (forall uvw r a b c d q, (forall i, (i < 3)%nat -> q <> comp r i) -> f uvw r a b c d q = uvw q) /\
            (p = "None"%string -> forall uvw r a b c d, f uvw r a b c d = uvw)
  | Raise e => e = ValueError /\ ~ In p ["None"; "rotate"; "wlinapprox"]%string
  end.
Proof.
  assert (C : forall r q, (forall i, (i < 3)%nat -> q <> comp r i) -> (q < 3 * r \/ 3 * r + 2 < q)%nat).
  { intros r q H. generalize (H 0%nat ltac:(lia)) (H 1%nat ltac:(lia)) (H 2%nat ltac:(lia)). unfold comp. lia. }
  intros p. unfold baseline_policy. destruct (String.eqb_spec p "None") as [->|N0]; [split; [cbn; auto|auto]|].
  destruct (String.eqb_spec p "rotate") as [->|N1]; [split; [cbn; auto|split; [|discriminate]]; intros; apply rotate_frame; auto|].
  destruct (String.eqb_spec p "wlinapprox") as [->|N2]; [split; [cbn; auto|split; [|discriminate]]; intros uvw r a b c d q H; apply planar_frame; specialize (C r q H); lia|].
  split; [reflexivity|]. cbn. intros [E|[E|[E|[]]]]; congruence.
Qed.
Print Assumptions C69_policies.

Example C68_case : 0 <= ncos 0 0 (PI / 3) 0.
Proof. unfold ncos, dot, direction. rewrite sin_0, cos_0, cos_PI3. lra. Qed.
Example C69_case : 0 < ncos 0 0 (PI / 3) 0 /\ lcos 0 0 (PI / 3) 0 <> 0.
Proof.
  unfold ncos, lcos, dot, direction, east. rewrite sin_0, cos_0, cos_PI3. split; [lra|].
  assert (0 < sin (PI / 3)) by (apply sin_gt_0; generalize PI_RGT_0; lra). lra.
Qed.
