From Coq Require Import String Reals Lra Ranalysis.
From Verif Require Import Prelude PreludeFacts CRing CplxR LoopFacts CoordSpec FacetModel FacetSpec.
Close Scope string_scope.
Open Scope R_scope.

Lemma pyth x : cos x * cos x = 1 - sin x * sin x.
Proof. generalize (sin2_cos2 x). unfold Rsqr. lra. Qed.
Lemma sphere ra0 dec0 ra dec :
  lcos ra0 dec0 ra dec ^ 2 + mcos ra0 dec0 ra dec ^ 2 + ncos ra0 dec0 ra dec ^ 2 = 1.
Proof.
  unfold lcos, mcos, ncos, dot, direction, east, north.
  generalize (pyth ra0) (pyth dec0) (pyth ra) (pyth dec). generalize (sin ra0) (cos ra0) (sin dec0) (cos dec0) (sin ra) (cos ra) (sin dec) (cos dec).
  intros a A b B c C d D HA HB HC HD.
  match goal with |- ?x = 1 => transitivity (D * D * (C * C + c * c) * (A * A + a * a) + 0 * x + (D * D * C * C * (x * 0)) + (d * d)) end.
  2: { rewrite HA, HC, HD. ring. }
  match goal with |- ?x = ?y => cut (x - y = 0); [lra|] end.
  transitivity ((B * B + b * b - 1) * ((D * C * A + D * c * a) ^ 2 + d ^ 2)).
  - cbn. ring.
  - rewrite HB. ring.
Qed.
Lemma facet_l ra0 dec0 ra dec : cos dec * sin (ra - ra0) = lcos ra0 dec0 ra dec.
Proof. unfold lcos, dot, direction, east. rewrite sin_minus. ring. Qed.
Lemma facet_m ra0 dec0 ra dec : sin dec * cos dec0 - cos dec * sin dec0 * cos (ra - ra0) = mcos ra0 dec0 ra dec.
Proof. unfold mcos, dot, direction, north. rewrite cos_minus. ring. Qed.
Lemma facet_n ra0 dec0 ra dec : sin dec * sin dec0 + cos dec * cos dec0 * cos (ra - ra0) = ncos ra0 dec0 ra dec.
Proof. unfold ncos, dot, direction. rewrite cos_minus. ring. Qed.
Lemma facet_lmn_spec ra0 dec0 ra dec : facet_lmn ra0 dec0 ra dec = (lcos ra0 dec0 ra dec, mcos ra0 dec0 ra dec, Rabs (ncos ra0 dec0 ra dec) - 1).
Proof.
  unfold facet_lmn. cbv zeta. rewrite (facet_l ra0 dec0), facet_m. f_equal. rewrite <- sqrt_Rsqr_abs.
  replace (1 - lcos ra0 dec0 ra dec * lcos ra0 dec0 ra dec - mcos ra0 dec0 ra dec * mcos ra0 dec0 ra dec) with (Rsqr (ncos ra0 dec0 ra dec)); [ring|].
  unfold Rsqr. generalize (sphere ra0 dec0 ra dec). cbn. lra.
Qed.
Lemma euler x : cadd (ofR (cos x)) (cmul ((0, 1) : RC) (ofR (sin x))) = cis x.
Proof. unfold cis, ofR. apply injective_projections; cbn; ring. Qed.

Section Phase.
  Variables (nchan : nat) (uvw : arr R) (r : nat) (lambdas : arr R) (ra0 dec0 ra dec : R).
  Definition turns_of : R := let '(l, m, n) := facet_lmn ra0 dec0 ra dec in uvw (comp r 0) * l + uvw (comp r 1) * m + uvw (comp r 2) * n.
  Lemma phase_rotate_at (vis : arr2 RC) s c k : phase_rotate nchan vis uvw r lambdas ra0 dec0 ra dec s c k =
    if (c <? nchan)%nat then cmul (vis c k) (cis (s * 2 * PI * turns_of / lambdas c)) else vis c k.
  Proof.
    unfold phase_rotate, turns_of. destruct (facet_lmn ra0 dec0 ra dec) as [[l m] n]. destruct (Nat.ltb_spec c nchan) as [Hc|Hc].
    - rewrite (for_at (fun v : arr2 RC => v c k) (fun y => cmul y (cis (s * 2 * PI * (uvw (comp r 0) * l + uvw (comp r 1) * m + uvw (comp r 2) * n) / lambdas c))) c); auto.
      + intros i v Hi Hic. destruct (Nat.eqb_spec c i); [congruence|reflexivity].
      + intros v. rewrite Nat.eqb_refl. now rewrite euler.
    - apply (for_frame (fun v : arr2 RC => v c k)). intros i v Hi. destruct (Nat.eqb_spec c i); [lia|reflexivity].
  Qed.
End Phase.
Lemma norm2_mul (x y : RC) : norm2 (cmul x y) = norm2 x * norm2 y.
Proof. destruct x, y. unfold norm2, re, im. cbn. ring. Qed.
Lemma phase_factor nchan vis uvw r lambdas ra0 dec0 ra dec s c k : (c < nchan)%nat -> 0 <= ncos ra0 dec0 ra dec ->
  phase_rotate nchan vis uvw r lambdas ra0 dec0 ra dec s c k =
  cmul (vis c k) (cis (s * 2 * PI * (uvw (comp r 0) * lcos ra0 dec0 ra dec + uvw (comp r 1) * mcos ra0 dec0 ra dec +
    uvw (comp r 2) * (ncos ra0 dec0 ra dec - 1)) / lambdas c)).
Proof.
  intros Hc Hn. rewrite phase_rotate_at. destruct (Nat.ltb_spec c nchan); [|lia]. unfold turns_of. rewrite facet_lmn_spec, Rabs_pos_eq by exact Hn. reflexivity.
Qed.
Lemma phase_modulus nchan vis uvw r lambdas ra0 dec0 ra dec s c k :
  norm2 (phase_rotate nchan vis uvw r lambdas ra0 dec0 ra dec s c k) = norm2 (vis c k).
Proof. rewrite phase_rotate_at. destruct (c <? nchan)%nat; auto. rewrite norm2_mul, cis_norm2. ring. Qed.
Lemma phase_undo nchan vis uvw r lambdas ra0 dec0 ra dec s c k :
  phase_rotate nchan (phase_rotate nchan vis uvw r lambdas ra0 dec0 ra dec s) uvw r lambdas ra0 dec0 ra dec (- s) c k = vis c k.
Proof.
  rewrite !phase_rotate_at. destruct (c <? nchan)%nat; auto.
  match goal with |- cmul (cmul _ (cis ?x)) (cis ?y) = _ => replace y with (- x) end.
  2: { unfold Rdiv. ring. }
  rewrite cis_opp. generalize (cis_conj (s * 2 * PI * turns_of uvw r ra0 dec0 ra dec / lambdas c)). generalize (cis (s * 2 * PI * turns_of uvw r ra0 dec0 ra dec / lambdas c)).
  intros z Hz. rewrite <- (Rmul_assoc (law_ring RC RC_laws)), Hz. destruct (vis c k). apply injective_projections; cbn; ring.
Qed.
Lemma ncos_same ra dec : ncos ra dec ra dec = 1.
Proof. unfold ncos, dot, direction. transitivity (cos dec * cos dec * (cos ra * cos ra + sin ra * sin ra) + sin dec * sin dec); [ring|]. rewrite (pyth ra), (pyth dec). ring. Qed.
Lemma lcos_same ra dec : lcos ra dec ra dec = 0.
Proof. unfold lcos, dot, direction, east. ring. Qed.
Lemma mcos_same ra dec : mcos ra dec ra dec = 0.
Proof. unfold mcos, dot, direction, north. transitivity (- (cos dec * sin dec) * (cos ra * cos ra + sin ra * sin ra) + sin dec * cos dec); [ring|]. rewrite (pyth ra). ring. Qed.
Lemma phase_same nchan vis uvw r lambdas ra dec s c k :
  phase_rotate nchan vis uvw r lambdas ra dec ra dec s c k = vis c k.
Proof.
  rewrite phase_rotate_at. destruct (c <? nchan)%nat; auto. unfold turns_of. rewrite facet_lmn_spec, lcos_same, mcos_same, ncos_same, Rabs_R1.
  replace (s * 2 * PI * (uvw (comp r 0) * 0 + uvw (comp r 1) * 0 + uvw (comp r 2) * (1 - 1)) / lambdas c) with 0 by (unfold Rdiv; ring).
  rewrite cis_0. destruct (vis c k). apply injective_projections; cbn; ring.
Qed.
(* beyond the horizon of the phase centre the sign of n is lost *)
Lemma phase_far nchan vis uvw r lambdas dec s c k :
  phase_rotate nchan vis uvw r lambdas 0 dec PI (- dec) s c k = vis c k.
Proof.
  rewrite phase_rotate_at. destruct (c <? nchan)%nat; auto. unfold turns_of. rewrite facet_lmn_spec.
  assert (E1 : lcos 0 dec PI (- dec) = 0). { unfold lcos, dot, direction, east. rewrite sin_0, cos_0, sin_PI, cos_PI. ring. }
  assert (E2 : mcos 0 dec PI (- dec) = 0). { unfold mcos, dot, direction, north. rewrite sin_0, cos_0, sin_PI, cos_PI, cos_neg, sin_neg. ring. }
  assert (E3 : ncos 0 dec PI (- dec) = -1). { unfold ncos, dot, direction. rewrite sin_0, cos_0, sin_PI, cos_PI, cos_neg, sin_neg. generalize (pyth dec). lra. }
  rewrite E1, E2, E3, Rabs_left by lra. replace (s * 2 * PI * (uvw (comp r 0) * 0 + uvw (comp r 1) * 0 + uvw (comp r 2) * (- -1 - 1)) / lambdas c) with 0 by (unfold Rdiv; ring).
  rewrite cis_0. destruct (vis c k). apply injective_projections; cbn; ring.
Qed.

(* baselines *)
Lemma comp_inj r i r' i' : (i < 3)%nat -> (i' < 3)%nat -> comp r i = comp r' i' -> r = r' /\ i = i'.
Proof. unfold comp. lia. Qed.
Lemma matrix_spec ra0 dec0 ra dec i j : (i < 3)%nat -> (j < 3)%nat -> rot_matrix ra0 dec0 ra dec i j = mul_t (T ra dec) (T ra0 dec0) i j.
Proof.
  intros Hi Hj. unfold rot_matrix, mul_t, T. rewrite sin_minus, cos_minus.
  do 3 (try destruct i as [|i]); try lia; do 3 (try destruct j as [|j]); try lia; cbn; ring.
Qed.
Lemma T_orthogonal ra dec i j : (i < 3)%nat -> (j < 3)%nat -> mul_t (T ra dec) (T ra dec) i j = identity i j.
Proof.
  intros Hi Hj. unfold mul_t, T, identity. generalize (pyth ra) (pyth dec). intros H1 H2.
  do 3 (try destruct i as [|i]); try lia; do 3 (try destruct j as [|j]); try lia; cbn.
  - lra.
  - ring.
  - ring.
  - ring.
  - transitivity (sin dec * sin dec * (sin ra * sin ra + cos ra * cos ra) + cos dec * cos dec); [ring|]. rewrite H1, H2. ring.
  - transitivity (- (sin dec * cos dec) * (sin ra * sin ra + cos ra * cos ra) + sin dec * cos dec); [ring|]. rewrite H1. ring.
  - ring.
  - transitivity (- (sin dec * cos dec) * (sin ra * sin ra + cos ra * cos ra) + sin dec * cos dec); [ring|]. rewrite H1. ring.
  - transitivity (cos dec * cos dec * (sin ra * sin ra + cos ra * cos ra) + sin dec * sin dec); [ring|]. rewrite H1, H2. ring.
Qed.
Lemma matrix_orthogonal ra0 dec0 ra dec i j : (i < 3)%nat -> (j < 3)%nat ->
  mul_t (rot_matrix ra0 dec0 ra dec) (rot_matrix ra0 dec0 ra dec) i j = identity i j.
Proof.
  intros Hi Hj. rewrite <- (T_orthogonal ra dec i j Hi Hj). unfold mul_t at 1. rewrite !matrix_spec by lia.
  (* A B^T (A B^T)^T = A (B^T B) A^T, and B^T B = 1 *)
  assert (B : forall a b, (a < 3)%nat -> (b < 3)%nat ->
    T ra0 dec0 0%nat a * T ra0 dec0 0%nat b + T ra0 dec0 1%nat a * T ra0 dec0 1%nat b + T ra0 dec0 2%nat a * T ra0 dec0 2%nat b = identity a b).
  { intros a b Ha Hb. unfold T, identity. generalize (pyth ra0) (pyth dec0). intros H1 H2.
    do 3 (try destruct a as [|a]); try lia; do 3 (try destruct b as [|b]); try lia; cbn.
    - transitivity (cos ra0 * cos ra0 + sin ra0 * sin ra0 * (sin dec0 * sin dec0 + cos dec0 * cos dec0)); [ring|]. rewrite H1, H2. ring.
    - transitivity (cos ra0 * sin ra0 * (sin dec0 * sin dec0 + cos dec0 * cos dec0 - 1)); [ring|]. rewrite H2. ring.
    - ring.
    - transitivity (cos ra0 * sin ra0 * (sin dec0 * sin dec0 + cos dec0 * cos dec0 - 1)); [ring|]. rewrite H2. ring.
    - transitivity (sin ra0 * sin ra0 + cos ra0 * cos ra0 * (sin dec0 * sin dec0 + cos dec0 * cos dec0)); [ring|]. rewrite H1, H2. ring.
    - ring.
    - ring.
    - ring.
    - lra. }
  unfold mul_t.
  generalize (B 0 0)%nat (B 0 1)%nat (B 0 2)%nat (B 1 1)%nat (B 1 2)%nat (B 2 2)%nat. intros B00 B01 B02 B11 B12 B22.
  specialize (B00 ltac:(lia) ltac:(lia)). specialize (B01 ltac:(lia) ltac:(lia)). specialize (B02 ltac:(lia) ltac:(lia)).
  specialize (B11 ltac:(lia) ltac:(lia)). specialize (B12 ltac:(lia) ltac:(lia)). specialize (B22 ltac:(lia) ltac:(lia)).
  unfold identity in B00, B01, B02, B11, B12, B22. cbn [Nat.eqb] in B00, B01, B02, B11, B12, B22.
  generalize dependent (T ra0 dec0). intros S _ B00 B01 B02 B11 B12 B22. generalize (T ra dec). intros A.
  match goal with |- ?x = ?y => transitivity (
    A i 0%nat * A j 0%nat * (S 0%nat 0%nat * S 0%nat 0%nat + S 1%nat 0%nat * S 1%nat 0%nat + S 2%nat 0%nat * S 2%nat 0%nat) +
    (A i 0%nat * A j 1%nat + A i 1%nat * A j 0%nat) * (S 0%nat 0%nat * S 0%nat 1%nat + S 1%nat 0%nat * S 1%nat 1%nat + S 2%nat 0%nat * S 2%nat 1%nat) +
    (A i 0%nat * A j 2%nat + A i 2%nat * A j 0%nat) * (S 0%nat 0%nat * S 0%nat 2%nat + S 1%nat 0%nat * S 1%nat 2%nat + S 2%nat 0%nat * S 2%nat 2%nat) +
    A i 1%nat * A j 1%nat * (S 0%nat 1%nat * S 0%nat 1%nat + S 1%nat 1%nat * S 1%nat 1%nat + S 2%nat 1%nat * S 2%nat 1%nat) +
    (A i 1%nat * A j 2%nat + A i 2%nat * A j 1%nat) * (S 0%nat 1%nat * S 0%nat 2%nat + S 1%nat 1%nat * S 1%nat 2%nat + S 2%nat 1%nat * S 2%nat 2%nat) +
    A i 2%nat * A j 2%nat * (S 0%nat 2%nat * S 0%nat 2%nat + S 1%nat 2%nat * S 1%nat 2%nat + S 2%nat 2%nat * S 2%nat 2%nat)) end; [ring|].
  rewrite B00, B01, B02, B11, B12, B22. ring.
Qed.
(* other rows are left alone *)
Lemma rotate_frame uvw r ra0 dec0 ra dec q : (q < 3 * r \/ 3 * r + 2 < q)%nat -> uvw_rotate uvw r ra0 dec0 ra dec q = uvw q.
Proof. intros H. unfold uvw_rotate, comp. rewrite !upd_neq by lia. reflexivity. Qed.
Lemma planar_frame uvw r ra0 dec0 ra dec q : (q < 3 * r \/ 3 * r + 1 < q)%nat -> uvw_planarwapprox uvw r ra0 dec0 ra dec q = uvw q.
Proof. intros H. unfold uvw_planarwapprox, comp. rewrite !upd_neq by lia. reflexivity. Qed.
Lemma rotate_values uvw r ra0 dec0 ra dec :
  let m := rot_matrix ra0 dec0 ra dec in let u := uvw (comp r 0) in let v := uvw (comp r 1) in let x := uvw (comp r 3) in
  let u' := m 0%nat 0%nat * u + m 0%nat 1%nat * v + m 0%nat 2%nat * x in
  let v' := m 1%nat 0%nat * u' + m 1%nat 1%nat * v + m 1%nat 2%nat * x in
  let out := uvw_rotate uvw r ra0 dec0 ra dec in
  out (comp r 0) = u' /\ out (comp r 1) = v' /\ out (comp r 2) = m 2%nat 0%nat * u' + m 2%nat 1%nat * v' + m 2%nat 2%nat * x.
Proof.
  cbv zeta. unfold uvw_rotate, comp.
  repeat split; repeat first [rewrite upd_eq | rewrite upd_neq by lia]; reflexivity.
Qed.
Lemma planar_values uvw r ra0 dec0 ra dec :
  let out := uvw_planarwapprox uvw r ra0 dec0 ra dec in
  out (comp r 0) = uvw (comp r 0) - uvw (comp r 2) * lcos ra0 dec0 ra dec / ncos ra0 dec0 ra dec /\
  out (comp r 1) = uvw (comp r 1) - uvw (comp r 2) * mcos ra0 dec0 ra dec / ncos ra0 dec0 ra dec /\
  out (comp r 2) = uvw (comp r 2).
Proof.
  cbv zeta. unfold uvw_planarwapprox. cbv zeta. rewrite (facet_l ra0 dec0), facet_m, facet_n. unfold comp.
  repeat split; repeat first [rewrite upd_eq | rewrite upd_neq by lia]; reflexivity.
Qed.
Lemma root_lim a x : 0 < a - x * x -> derivable_pt_lim (fun t => sqrt (a - t * t)) x (- x / sqrt (a - x * x)).
Proof.
  intros H. replace (- x / sqrt (a - x * x)) with (/ (2 * sqrt (a - x * x)) * (0 - (1 * x + x * 1))).
  2: { field. apply Rgt_not_eq, sqrt_lt_R0, H. }
  apply (derivable_pt_lim_comp (fun t => a - t * t) sqrt x).
  - apply (derivable_pt_lim_minus (fun _ => a) (fun t => t * t)); [apply derivable_pt_lim_const|].
    apply (derivable_pt_lim_mult (fun t => t) (fun t => t)); apply derivable_pt_lim_id.
  - apply derivable_pt_lim_sqrt, H.
Qed.
Lemma lim_ext f g x l : (forall t, f t = g t) -> derivable_pt_lim f x l -> derivable_pt_lim g x l.
Proof. intros E H eps He. destruct (H eps He) as (d & Hd). exists d. intros h Hh Hb. rewrite <- !E. apply Hd; auto. Qed.
Lemma planar_gradient uvw r ra0 dec0 ra dec : 0 < ncos ra0 dec0 ra dec ->
  let out := uvw_planarwapprox uvw r ra0 dec0 ra dec in
  let l0 := lcos ra0 dec0 ra dec in let m0 := mcos ra0 dec0 ra dec in
  derivable_pt_lim (fun l => path (uvw (comp r 0)) (uvw (comp r 1)) (uvw (comp r 2)) l m0) l0 (out (comp r 0)) /\
  derivable_pt_lim (fun m => path (uvw (comp r 0)) (uvw (comp r 1)) (uvw (comp r 2)) l0 m) m0 (out (comp r 1)).
Proof.
  intros Hn. cbv zeta. destruct (planar_values uvw r ra0 dec0 ra dec) as (E0 & E1 & _). cbv zeta in E0, E1. rewrite E0, E1. clear E0 E1.
  generalize (sphere ra0 dec0 ra dec). generalize dependent (ncos ra0 dec0 ra dec). generalize (lcos ra0 dec0 ra dec) (mcos ra0 dec0 ra dec).
  intros l m n Hn S. generalize (uvw (comp r 0)) (uvw (comp r 1)) (uvw (comp r 2)). intros u v w.
  assert (Hs : forall a x, a - x * x = n * n -> 0 < a - x * x /\ sqrt (a - x * x) = n).
  { intros a x E. rewrite E. split; [nra|]. apply sqrt_square. lra. }
  split.
  - destruct (Hs (1 - m * m) l ltac:(lra)) as (P & E). unfold path.
    apply (lim_ext (fun t => (u * t + v * m) + w * sqrt (1 - m * m - t * t))); [intros t; do 2 f_equal; f_equal; ring|].
    replace (u - w * l / n) with ((u * 1 + 0) + w * (- l / sqrt (1 - m * m - l * l))) by (rewrite E; field; lra).
    apply (derivable_pt_lim_plus (fun t => u * t + v * m) (fun t => w * sqrt (1 - m * m - t * t))).
    + apply (derivable_pt_lim_plus (fun t => u * t) (fun _ => v * m)); [|apply derivable_pt_lim_const].
      apply (derivable_pt_lim_scal (fun t => t) u), derivable_pt_lim_id.
    + apply (derivable_pt_lim_scal (fun t => sqrt (1 - m * m - t * t)) w), root_lim, P.
  - destruct (Hs (1 - l * l) m ltac:(lra)) as (P & E). unfold path.
    apply (lim_ext (fun t => (v * t + u * l) + w * sqrt (1 - l * l - t * t))); [intros t; ring|].
    replace (v - w * m / n) with ((v * 1 + 0) + w * (- m / sqrt (1 - l * l - m * m))) by (rewrite E; field; lra).
    apply (derivable_pt_lim_plus (fun t => v * t + u * l) (fun t => w * sqrt (1 - l * l - t * t))).
    + apply (derivable_pt_lim_plus (fun t => v * t) (fun _ => u * l)); [|apply derivable_pt_lim_const].
      apply (derivable_pt_lim_scal (fun t => t) v), derivable_pt_lim_id.
    + apply (derivable_pt_lim_scal (fun t => sqrt (1 - l * l - t * t)) w), root_lim, P.
Qed.
