From Coq Require Import Reals Lra Lia Psatz Ring.
From Verif Require Import Prelude CRing CField CplxR CplxF PredictModel PredictSpec CalModel CalSpec RimeSpec DftSpec DftProofs CleanProofs RdftProofs3 Cal2Model Cal2Spec Cal2Proofs3 PhaseSpec.
Open Scope R_scope.

(* second order bound for one row *)
Lemma deriv1 X Y B x : derivable_pt_lim (fun x => X * cos x - X - Y * sin x + Y * x + B * (x * x) / 2) x (- X * sin x - Y * cos x + Y + B * x).
Proof.
  replace (- X * sin x - Y * cos x + Y + B * x) with ((((X * - sin x - 0) - Y * cos x) + Y * 1) + B / 2 * (1 * x + x * 1)) by field.
  assert (H : derivable_pt_lim (plus_fct (plus_fct (minus_fct (minus_fct (mult_real_fct X cos) (fct_cte X)) (mult_real_fct Y sin)) (mult_real_fct Y id)) (mult_real_fct (B / 2) (mult_fct id id))) x
     ((((X * - sin x - 0) - Y * cos x) + Y * 1) + B / 2 * (1 * x + x * 1))).
  { apply derivable_pt_lim_plus; [apply derivable_pt_lim_plus; [apply derivable_pt_lim_minus; [apply derivable_pt_lim_minus|]|]|].
    - apply derivable_pt_lim_scal, derivable_pt_lim_cos.
    - apply derivable_pt_lim_const.
    - apply derivable_pt_lim_scal, derivable_pt_lim_sin.
    - apply derivable_pt_lim_scal, derivable_pt_lim_id.
    - apply derivable_pt_lim_scal. apply (derivable_pt_lim_mult id id); apply derivable_pt_lim_id. }
  intros eps He. destruct (H eps He) as [dl Hd]. exists dl. intros h Hh1 Hh2. specialize (Hd h Hh1 Hh2).
  unfold plus_fct, minus_fct, mult_fct, mult_real_fct, fct_cte, id in Hd.
  match type of Hd with Rabs ?a < _ => match goal with |- Rabs ?b < _ => replace b with a; [exact Hd|] end end. field. assumption.
Qed.
Lemma deriv2 X Y B x : derivable_pt_lim (fun x => - X * sin x - Y * cos x + Y + B * x) x (- X * cos x + Y * sin x + B).
Proof.
  replace (- X * cos x + Y * sin x + B) with (((- X * cos x - Y * - sin x) + 0) + B * 1) by ring.
  assert (H : derivable_pt_lim (plus_fct (plus_fct (minus_fct (mult_real_fct (- X) sin) (mult_real_fct Y cos)) (fct_cte Y)) (mult_real_fct B id)) x
     (((- X * cos x - Y * - sin x) + 0) + B * 1)).
  { apply derivable_pt_lim_plus; [apply derivable_pt_lim_plus; [apply derivable_pt_lim_minus|]|].
    - apply derivable_pt_lim_scal, derivable_pt_lim_sin.
    - apply derivable_pt_lim_scal, derivable_pt_lim_cos.
    - apply derivable_pt_lim_const.
    - apply derivable_pt_lim_scal, derivable_pt_lim_id. }
  exact H.
Qed.
(* two mean values: h(0) = h'(0) = 0 and h'' >= 0 *)
Lemma mvt0 f f' x : (forall y, derivable_pt_lim f y (f' y)) -> f 0 = 0 -> exists y, f x = f' y * x /\ 0 <= y * x /\ (x = 0 -> y = 0).
Proof.
  intros Hd H0. destruct (Rtotal_order x 0) as [L|[->|L]].
  - destruct (MVT_cor2 f f' x 0 L) as (y & Hy & Hr); [auto|]. exists y. rewrite H0 in Hy. repeat split; [nra|nra|lra].
  - exists 0. repeat split; [rewrite H0; ring|lra].
  - destruct (MVT_cor2 f f' 0 x L) as (y & Hy & Hr); [auto|]. exists y. rewrite H0 in Hy. repeat split; [nra|nra|lra].
Qed.
Lemma cos_bound X Y B x : 0 <= B -> X * X + Y * Y <= B * B -> X * (1 - cos x) + Y * sin x <= Y * x + B * (x * x) / 2.
Proof.
  intros HB HXY.
  destruct (mvt0 _ _ x (deriv1 X Y B)) as (y & Hy & Sy & _). { rewrite cos_0, sin_0. field. }
  destruct (mvt0 _ _ y (deriv2 X Y B)) as (z & Hz & _). { rewrite cos_0, sin_0. ring. }
  cbv beta in Hy, Hz. rewrite Hz in Hy.
  assert (P : 0 <= - X * cos z + Y * sin z + B).
  { generalize (sin2_cos2 z). unfold Rsqr. intros E. set (C := cos z) in *. set (Sn := sin z) in *.
    assert (Q : (X * C - Y * Sn) * (X * C - Y * Sn) <= B * B).
    { assert (I : (X * C - Y * Sn) * (X * C - Y * Sn) = (X * X + Y * Y) * (Sn * Sn + C * C) - (X * Sn + Y * C) * (X * Sn + Y * C)) by ring.
      rewrite I, E. generalize (Rle_0_sqr (X * Sn + Y * C)). unfold Rsqr. lra. }
    assert (X * C - Y * Sn <= B) by (destruct (Rle_dec (X * C - Y * Sn) B); auto; nra). lra. }
  assert (0 <= (- X * cos z + Y * sin z + B) * (y * x)) by (apply Rmult_le_pos; auto). lra.
Qed.

Definition row_seen (Gp M Gq : RC) : RC := cmul (cmul Gp M) (cconj Gq).
Lemma norm2_mul (x y : RC) : norm2 (cmul x y) = norm2 x * norm2 y.
Proof. destruct x, y. unfold norm2, re, im. cbn. ring. Qed.
Lemma norm2_conj (x : RC) : norm2 (cconj x) = norm2 x.
Proof. destruct x. unfold norm2, re, im. cbn. ring. Qed.
Lemma row_bound (D M Gp Gq : RC) dp dq : norm2 Gp = 1 -> norm2 Gq = 1 -> norm2 D <= norm2 M ->
  norm2 (csub D (row_seen (cmul Gp (cis dp)) M (cmul Gq (cis dq)))) <=
  norm2 (csub D (row_seen Gp M Gq)) + 2 * im (cmul (cconj D) (row_seen Gp M Gq)) * (dp - dq) + norm2 M * ((dp - dq) * (dp - dq)).
Proof.
  intros Hp Hq HD. set (S := row_seen Gp M Gq).
  assert (E : row_seen (cmul Gp (cis dp)) M (cmul Gq (cis dq)) = cmul S (cis (dp - dq))).
  { unfold S, row_seen. unfold Rminus. rewrite cis_add, cis_opp. generalize (cis dp), (cis dq). intros a b.
    destruct Gp, Gq, M, a, b. cbn. f_equal; ring. }
  rewrite E.
  assert (NS : norm2 S = norm2 M). { unfold S, row_seen. rewrite !norm2_mul, norm2_conj, Hp, Hq. ring. }
  set (z := cmul (cconj D) S). assert (Nz : re z * re z + im z * im z <= norm2 M * norm2 M).
  { change (norm2 z <= norm2 M * norm2 M). unfold z. rewrite norm2_mul, norm2_conj, NS. apply Rmult_le_compat_r; auto.
    unfold norm2. nra. }
  assert (PM : 0 <= norm2 M) by (unfold norm2; nra).
  generalize (cos_bound (re z) (im z) (norm2 M) (dp - dq) PM Nz). intros CB.
  assert (I : norm2 (csub D (cmul S (cis (dp - dq)))) = norm2 (csub D S) + 2 * (re z * (1 - cos (dp - dq)) + im z * sin (dp - dq))).
  { unfold z. generalize (sin2_cos2 (dp - dq)). unfold Rsqr, cis. generalize (cos (dp - dq)), (sin (dp - dq)). intros C Sn ES.
    assert (EC : Sn * Sn = 1 - C * C) by lra. clear - EC. destruct D as [a b], S as [x y]. unfold norm2, re, im. cbn.
    transitivity (a * a + b * b - 2 * (a * (x * C - y * Sn) + b * (x * Sn + y * C)) + (x * x + y * y) * (C * C + Sn * Sn)); [ring|].
    rewrite EC. ring. }
  rewrite I. lra.
Qed.

Lemma rsum_le' n f g : (forall i, (i < n)%nat -> f i <= g i) -> rsum n f <= rsum n g.
Proof. apply rsum_le. Qed.
Section Step.
  Context (N nant : nat) (p q : nat -> nat) (u : nat -> bool).
  Hypothesis Hpq : forall k, (k < N)%nat -> u k = true -> (p k < nant)%nat /\ (q k < nant)%nat.
  Lemma pair_sum (w : nat -> R) (x y : nat -> R) :
    rsum nant (fun a => w a * rsum N (fun k => if u k then (if Nat.eqb (p k) a then x k else 0) + (if Nat.eqb (q k) a then y k else 0) else 0)) =
    rsum N (fun k => if u k then w (p k) * x k + w (q k) * y k else 0).
  Proof using Hpq.
    rewrite (rsum_ext nant _ (fun a => rsum N (fun k => w a * if u k then (if Nat.eqb (p k) a then x k else 0) + (if Nat.eqb (q k) a then y k else 0) else 0))).
    2: { intros a _. now rewrite rsum_scale. }
    rewrite rsum_swap. apply rsum_ext. intros k Hk. destruct (u k) eqn:Eu.
    - destruct (Hpq k Hk Eu) as [P Q].
      rewrite (rsum_ext nant _ (fun a => (if Nat.eqb a (p k) then w a * x k else 0) + (if Nat.eqb a (q k) then w a * y k else 0))).
      2: { intros a _. rewrite (Nat.eqb_sym (p k)), (Nat.eqb_sym (q k)). destruct (Nat.eqb a (p k)), (Nat.eqb a (q k)); ring. }
      rewrite rsum_add, (rsum_pick nant (p k) (fun a => w a * x k)), (rsum_pick nant (q k) (fun a => w a * y k)); auto.
    - rewrite (rsum_ext nant _ (fun _ => 0)), rsum_0; auto. intros. ring.
  Qed.
  Context (M D : nat -> RC) (G G' : nat -> RC) (d J : nat -> R) (Q : nat -> R).
  Hypothesis Gu : forall a, norm2 (G a) = 1.
  Hypothesis HG : forall a, G' a = cmul (G a) (cis (d a)).
  Hypothesis HD : forall k, (k < N)%nat -> u k = true -> norm2 (D k) <= norm2 (M k).
  Let sn k := row_seen (G (p k)) (M k) (G (q k)).
  Hypothesis HJ : forall a, (a < nant)%nat -> J a = rsum N (fun k => if u k then (if Nat.eqb (p k) a then norm2 (M k) else 0) + (if Nat.eqb (q k) a then norm2 (M k) else 0) else 0).
  Hypothesis HQ : forall a, (a < nant)%nat -> Q a = rsum N (fun k => if u k then (if Nat.eqb (p k) a then - im (cmul (cconj (D k)) (sn k)) else 0) + (if Nat.eqb (q k) a then im (cmul (cconj (D k)) (sn k)) else 0) else 0).
  Hypothesis Hd : forall a, (a < nant)%nat -> Q a = 2 * (J a * d a).
  Lemma step_bound : rsum N (fun k => if u k then norm2 (csub (D k) (row_seen (G' (p k)) (M k) (G' (q k)))) else 0) <=
    rsum N (fun k => if u k then norm2 (csub (D k) (sn k)) else 0) - 2 * rsum nant (fun a => J a * (d a * d a)).
  Proof using Hpq Gu HG HD HJ HQ Hd.
    set (Y k := im (cmul (cconj (D k)) (sn k))).
    assert (B : rsum N (fun k => if u k then norm2 (csub (D k) (row_seen (G' (p k)) (M k) (G' (q k)))) else 0) <=
      rsum N (fun k => (if u k then norm2 (csub (D k) (sn k)) else 0) + ((-2) * (if u k then d (p k) * - Y k + d (q k) * Y k else 0) +
        2 * (if u k then d (p k) * d (p k) * norm2 (M k) + d (q k) * d (q k) * norm2 (M k) else 0)))).
    { apply rsum_le. intros k Hk. destruct (u k) eqn:Eu; [|lra]. rewrite !HG.
      eapply Rle_trans; [apply row_bound; auto|]. fold (sn k). fold (Y k).
      assert (PM : 0 <= norm2 (M k)) by (unfold norm2; nra).
      assert (0 <= norm2 (M k) * ((d (p k) + d (q k)) * (d (p k) + d (q k)))) by (apply Rmult_le_pos; [exact PM|apply Rle_0_sqr]).
      set (a := d (p k)) in *. set (b := d (q k)) in *. set (m := norm2 (M k)) in *. set (y := Y k) in *.
      replace (norm2 (csub (D k) (sn k)) + 2 * y * (a - b) + m * ((a - b) * (a - b)))
        with (norm2 (csub (D k) (sn k)) + (- 2 * (a * - y + b * y) + 2 * (a * a * m + b * b * m)) - m * ((a + b) * (a + b))) by ring. lra. }
    rewrite !rsum_add, !rsum_scale in B.
    rewrite <- (pair_sum d (fun k => - Y k) Y) in B.
    rewrite <- (pair_sum (fun a => d a * d a) (fun k => norm2 (M k)) (fun k => norm2 (M k))) in B.
    eapply Rle_trans; [exact B|]. apply Req_le.
    rewrite (rsum_ext nant (fun a => d a * _) (fun a => 2 * (J a * (d a * d a)))).
    2: { intros a Ha. transitivity (d a * Q a); [|rewrite Hd by auto; ring]. now rewrite HQ by auto. }
    rewrite (rsum_ext nant (fun a => d a * d a * _) (fun a => J a * (d a * d a))).
    2: { intros a Ha. rewrite HJ by auto. ring. }
    rewrite rsum_scale. ring.
  Qed.
End Step.
