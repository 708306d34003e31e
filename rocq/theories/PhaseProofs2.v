From Coq Require Import Reals Lra Lia Psatz Ring.
From Verif Require Import Prelude CRing CField CplxR CplxF DftSpec DftProofs CleanProofs RdftProofs3 NumpyModel AvgModel PredictModel PredictSpec CalModel CalSpec RimeSpec
  Cal2Model Cal2Spec Cal2Proofs Cal2Proofs2 Cal2Proofs3 PhaseSpec PhaseProofs.
Open Scope R_scope.

Section One.
  Context (tbi : arr Z) (tmin : Z) (tbc ant1 ant2 : arr nat) (use : nat -> nat -> bool).
  Context (M : nat -> nat -> nat -> nat -> RC) (D : nat -> nat -> nat -> RC).
  Lemma seen_norm G t r f s c : norm2 (G t (ant1 r) f s c 0%nat) = 1 -> norm2 (G t (ant2 r) f s c 0%nat) = 1 ->
    norm2 (seen ant1 ant2 M G t r f s c) = norm2 (M r f s c).
  Proof. intros H1 H2. unfold seen. rewrite !norm2_mul, norm2_conj, H1, H2. ring. Qed.
  Lemma residual1 G t r f c : residuals ant1 ant2 1 M D G t r f c = csub (D r f c) (seen ant1 ant2 M G t r f 0%nat c).
  Proof. unfold residuals. cbn [csum]. generalize (seen ant1 ant2 M G t r f 0%nat c) (D r f c). intros [a b] [x y]. cbn. f_equal; ring. Qed.
  (* J^H J does not depend on which unit gains it is taken at *)
  Lemma jhj_unit G t a f c : (forall a, norm2 (G t a f 0%nat c 0%nat) = 1) ->
    JHJ tbi tmin tbc ant1 ant2 use M G t a f 0%nat c =
    rsum (tbc t) (fun k => let r := bin_row tbi tmin t k in if use r f then (if Nat.eqb (ant1 r) a then norm2 (M r f 0%nat c) else 0) + (if Nat.eqb (ant2 r) a then norm2 (M r f 0%nat c) else 0) else 0).
  Proof.
    intros H. unfold JHJ, bin_sum. apply (csum_ext (K := RR)). intros k _. cbv zeta. set (r := bin_row tbi tmin t k). rewrite (seen_norm G t r f 0%nat c) by auto. reflexivity.
  Qed.
  Lemma re_if (b : bool) (x y : RC) : re (if b then x else y) = if b then re x else re y.
  Proof. now destruct b. Qed.
  Lemma re_add (x y : RC) : re (cadd x y) = re x + re y.
  Proof. reflexivity. Qed.
  Lemma jhr_re G t a f c : re (JHR tbi tmin tbc ant1 ant2 use M G (residuals ant1 ant2 1 M D G t) t a f 0%nat c) =
    rsum (tbc t) (fun k => let r := bin_row tbi tmin t k in let Y := im (cmul (cconj (D r f c)) (seen ant1 ant2 M G t r f 0%nat c)) in
      if use r f then (if Nat.eqb (ant1 r) a then - Y else 0) + (if Nat.eqb (ant2 r) a then Y else 0) else 0).
  Proof.
    unfold JHR, bin_sum. rewrite re_csum. apply (csum_ext (K := RR)). intros k _. cbv zeta. set (r := bin_row tbi tmin t k).
    rewrite re_if, re_add, !re_if, residual1.
    generalize (seen ant1 ant2 M G t r f 0%nat c) (D r f c). intros [x y] [u v].
    destruct (use r f); [|reflexivity]. unfold re, im, im_unit. cbn. destruct (Nat.eqb (ant1 r) a), (Nat.eqb (ant2 r) a); match goal with |- ?l = ?r => change (@eq R l r) end; ring.
  Qed.
  Context (nant : nat) (J : nat -> nat -> nat -> nat -> nat -> R) (G G' : garr RC) (t f c : nat).
  Hypothesis Hant : forall r, in_bin tbi tmin tbc t r -> (ant1 r < nant)%nat /\ (ant2 r < nant)%nat.
  Hypothesis HD : forall r, in_bin tbi tmin tbc t r -> use r f = true -> norm2 (D r f c) <= norm2 (M r f 0%nat c).
  Hypothesis Hu : forall a, norm2 (G t a f 0%nat c 0%nat) = 1.
  Hypothesis Hmin : (tmin <= tbi t)%Z.
  Let delta a := gn_delta tbi tmin tbc ant1 ant2 1 use M D J G t a f 0%nat c.
  Hypothesis HJ : forall a, J t a f 0%nat c = JHJ tbi tmin tbc ant1 ant2 use M G t a f 0%nat c.
  Hypothesis HJ0 : forall a, (a < nant)%nat -> 0 < J t a f 0%nat c.
  Hypothesis HG' : forall a, G' t a f 0%nat c 0%nat = cis (angle (G t a f 0%nat c 0%nat) + delta a).
  Lemma in_bin_row k : (k < tbc t)%nat -> in_bin tbi tmin tbc t (bin_row tbi tmin t k).
  Proof using Hmin. intros Hk. unfold in_bin, bin_row. lia. Qed.
  Lemma one_step : chi2 tbi tmin tbc ant1 ant2 1 use M D G' t f c <=
    chi2 tbi tmin tbc ant1 ant2 1 use M D G t f c - 2 * rsum nant (fun a => J t a f 0%nat c * (delta a * delta a)).
  Proof using Hant HD Hu HJ HJ0 HG' Hmin.
    assert (E : forall G, chi2 tbi tmin tbc ant1 ant2 1 use M D G t f c =
      rsum (tbc t) (fun k => if use (bin_row tbi tmin t k) f then norm2 (csub (D (bin_row tbi tmin t k) f c) (row_seen (G t (ant1 (bin_row tbi tmin t k)) f 0%nat c 0%nat) (M (bin_row tbi tmin t k) f 0%nat c) (G t (ant2 (bin_row tbi tmin t k)) f 0%nat c 0%nat))) else 0)).
    { intros H. unfold chi2, bin_sum. apply (csum_ext (K := RR)). intros k _. now rewrite residual1. }
    rewrite !E.
    apply (step_bound (tbc t) nant (fun k => ant1 (bin_row tbi tmin t k)) (fun k => ant2 (bin_row tbi tmin t k)) (fun k => use (bin_row tbi tmin t k) f)
      ltac:(intros k Hk _; apply Hant, in_bin_row, Hk) (fun k => M (bin_row tbi tmin t k) f 0%nat c) (fun k => D (bin_row tbi tmin t k) f c)
      (fun a => G t a f 0%nat c 0%nat) (fun a => G' t a f 0%nat c 0%nat) delta (fun a => J t a f 0%nat c)
      (fun a => re (JHR tbi tmin tbc ant1 ant2 use M G (residuals ant1 ant2 1 M D G t) t a f 0%nat c))).
    - exact Hu.
    - intros a. rewrite HG', cis_add, angle_unit by auto. reflexivity.
    - intros k Hk Uk. apply HD; auto. now apply in_bin_row.
    - intros a Ha. rewrite HJ. now apply jhj_unit.
    - intros a Ha. apply jhr_re.
    - intros a Ha. unfold delta, gn_delta. specialize (HJ0 a Ha). field. lra.
  Qed.
End One.

Notation Dw vis weight := (fun r f c => cmul (v_at vis r f c 0%nat : RC) (ofR (sqrt (weight r f c)))) (only parsing).
Notation Mw m weight := (fun r f s c => cmul (m_at m r f s c 0%nat : RC) (ofR (sqrt (weight r f c)))) (only parsing).

Lemma rsum_term n f k : (k < n)%nat -> (forall i, (i < n)%nat -> 0 <= f i) -> f k <= rsum n f.
Proof.
  intros Hk H. induction n as [|n IH]; [lia|]. rewrite rsum_S. destruct (Nat.eq_dec k n) as [->|Ne].
  - assert (0 <= rsum n f) by (apply rsum_nonneg; intros; apply H; lia). lra.
  - assert (0 <= f n) by (apply H; lia). assert (f k <= rsum n f) by (apply IH; [lia|intros; apply H; lia]). lra.
Qed.
Section Run.
  Context (n nant ncorr nchan : nat) (tbi : arr Z) (tbc ant1 ant2 : arr nat) (g : gain_arr RCF) (vis : vis_arr RCF) (m : model_arr RCF)
    (flag : nat -> nat -> arr2 bool) (weight : arr3 R) (tmin : Z) (use : nat -> nat -> bool).
  Hypothesis Hn : (0 < n)%nat.
  Hypothesis Hmin : is_min n tbi tmin.
  Hypothesis Hdis : bins_disjoint n tbi tmin tbc.
  Hypothesis Huse : forall r f, use r f = true <-> ~ flagged false ncorr (flag r f).
  Hypothesis Hvc : v_corr vis = ncorr.
  Hypothesis Hmc : m_corr m = ncorr.
  Hypothesis Hvn : v_chan vis = nchan.
  Hypothesis Hmd : m_dir m = 1%nat.
  Hypothesis Hct : check_type (j_ndim g) (m_ndim m) VT_model = Ok DIAG_DIAG.
  Hypothesis Hct2 : check_type (j_ndim g) (v_ndim vis) VT_vis = Ok DIAG_DIAG.
  Hypothesis Hjt : j_tim g = n.
  Hypothesis Hjc : j_chan g = nchan.
  Hypothesis Hjd : j_dir g = 1%nat.
  Let J := JHJ tbi tmin tbc ant1 ant2 use (Mw m weight) (j_at g).
  Let cost G := misfit n nchan ncorr tbi tmin tbc ant1 ant2 1 use (Mw m weight) (Dw vis weight) G.
  Hypothesis Hunit : pure_phases n nchan 1 ncorr (j_at g).
  Hypothesis Hant : antennas_in nant n tbi tmin tbc ant1 ant2.
  Hypothesis HD : data_within_model n nchan ncorr tbi tmin tbc use (Mw m weight) (Dw vis weight).
  Context (Jmin : R).
  Hypothesis Jpos : 0 < Jmin.
  Hypothesis HJ : forall t a f c, gain_in n nant nchan 1 ncorr t a f 0 c -> Jmin <= J t a f 0%nat c.
  Let delta G := gn_delta tbi tmin tbc ant1 ant2 1 use (Mw m weight) (Dw vis weight) J G.
  Lemma cost_nonneg G : 0 <= cost G.
  Proof.
    unfold cost, misfit. apply rsum_nonneg. intros t _. apply rsum_nonneg. intros f _. apply rsum_nonneg. intros c _.
    unfold chi2, bin_sum. apply (rsum_nonneg (tbc t)). intros k _. destruct (use _ f); [|apply Rle_refl]. unfold norm2. nra.
  Qed.
  Lemma cost_step G G' : pure_phases n nchan 1 ncorr G ->
    (forall t a f c, (t < n)%nat -> (f < nchan)%nat -> (c < ncorr)%nat -> G' t a f 0%nat c 0%nat = cis (angle (G t a f 0%nat c 0%nat) + delta G t a f 0%nat c)) ->
    cost G' <= cost G - 2 * rsum n (fun t => rsum nchan (fun f => rsum ncorr (fun c => rsum nant (fun a => J t a f 0%nat c * (delta G t a f 0%nat c * delta G t a f 0%nat c))))).
  Proof.
    intros HG HG'. unfold cost, misfit.
    rewrite <- rsum_scale, <- rsum_sub. apply rsum_le. intros t Ht.
    rewrite <- rsum_scale, <- rsum_sub. apply rsum_le. intros f Hf.
    rewrite <- rsum_scale, <- rsum_sub. apply rsum_le. intros c Hc.
    apply one_step.
    - intros r Hr. now apply (Hant t).
    - intros r Hr Hu. apply (HD t); auto.
    - intros a. apply HG; auto; lia.
    - apply Hmin. exact Ht.
    - intros a. unfold J. rewrite (jhj_unit tbi tmin tbc ant1 ant2 use _ G), jhj_unit; [reflexivity| |]; intros b; [apply Hunit|apply HG]; auto; lia.
    - intros a Ha. apply Rlt_le_trans with Jmin; auto. apply HJ. unfold gain_in. repeat split; auto; lia.
    - intros a. apply HG'; auto.
  Qed.
  Lemma gain_drop G tol : (0 <= tol)%R -> (exists t a f s c, gain_in n nant nchan 1 ncorr t a f s c /\ (tol < Rabs (delta G t a f s c))%R) ->
    Jmin * (tol * tol) <= rsum n (fun t => rsum nchan (fun f => rsum ncorr (fun c => rsum nant (fun a => J t a f 0%nat c * (delta G t a f 0%nat c * delta G t a f 0%nat c))))).
  Proof.
    intros Htol (t & a & f & s & c & (Ht & Ha & Hf & Hs & Hc) & Hd). assert (s = 0)%nat by lia. subst s.
    assert (P : forall t f c a, (t < n)%nat -> (f < nchan)%nat -> (c < ncorr)%nat -> (a < nant)%nat -> 0 <= J t a f 0%nat c * (delta G t a f 0%nat c * delta G t a f 0%nat c)).
    { intros. apply Rmult_le_pos; [|apply Rle_0_sqr]. apply Rle_trans with Jmin; [lra|]. apply HJ. unfold gain_in. repeat split; auto; lia. }
    assert (A : Jmin * (tol * tol) <= J t a f 0%nat c * (delta G t a f 0%nat c * delta G t a f 0%nat c)).
    { apply Rmult_le_compat; try lra; [nra| |].
      - apply HJ. unfold gain_in. repeat split; auto; lia.
      - apply Rle_trans with (Rabs (delta G t a f 0%nat c) * Rabs (delta G t a f 0%nat c)); [nra|]. rewrite <- Rabs_mult. rewrite Rabs_pos_eq; [lra|apply Rle_0_sqr]. }
    eapply Rle_trans; [exact A|].
    eapply Rle_trans; [apply (rsum_term nant (fun a => J t a f 0%nat c * (delta G t a f 0%nat c * delta G t a f 0%nat c)) a); auto|].
    eapply Rle_trans; [apply (rsum_term ncorr (fun c => rsum nant (fun a => J t a f 0%nat c * (delta G t a f 0%nat c * delta G t a f 0%nat c))) c); auto; intros; apply rsum_nonneg; auto|].
    eapply Rle_trans; [apply (rsum_term nchan (fun f => rsum ncorr (fun c => rsum nant (fun a => J t a f 0%nat c * (delta G t a f 0%nat c * delta G t a f 0%nat c)))) f); auto; intros; apply rsum_nonneg; intros; apply rsum_nonneg; auto|].
    apply (rsum_term n (fun t => rsum nchan (fun f => rsum ncorr (fun c => rsum nant (fun a => J t a f 0%nat c * (delta G t a f 0%nat c * delta G t a f 0%nat c))))) t); auto.
    intros. do 3 (apply rsum_nonneg; intros). auto.
  Qed.
  Lemma drop_nonneg G : 0 <= rsum n (fun t => rsum nchan (fun f => rsum ncorr (fun c => rsum nant (fun a => J t a f 0%nat c * (delta G t a f 0%nat c * delta G t a f 0%nat c))))).
  Proof.
    do 4 (apply rsum_nonneg; intros). apply Rmult_le_pos; [|apply Rle_0_sqr]. apply Rle_trans with Jmin; [lra|]. apply HJ. unfold gain_in. repeat split; auto; lia.
  Qed.

  Lemma run_converges tol maxiter : (0 < tol < 1)%R -> (0 < maxiter)%nat -> exists g' jhj jhr k,
    snd (gauss_newton n nant ncorr tbi tbc ant1 ant2 g vis flag m weight tol maxiter) = Ok (g', jhj, jhr, k) /\
    (1 <= k <= maxiter)%nat /\ pure_phases n nchan 1 ncorr (j_at g') /\
    cost (j_at g') + INR (k - 1) * (2 * Jmin * (tol * tol)) <= cost (j_at g) /\
    (cost (j_at g) < INR (maxiter - 1) * (2 * Jmin * (tol * tol)) ->
      (k < maxiter)%nat /\
      forall t a f c, gain_in n nant nchan 1 ncorr t a f 0 c -> (Rabs (re (jhr t a f 0%nat c 0%nat)) <= 2 * tol * jhj t a f 0%nat c 0%nat)%R).
  Proof.
    intros Htol Hmax.
    destruct (gn_main n nant ncorr nchan 1 tbi tbc ant1 ant2 g vis m flag weight tmin use Hn Hmin Hdis Huse Hvc Hmc Hvn Hmd Hct Hct2 Hjt Hjc Hjd tol maxiter ltac:(lra))
      as [_ H]. destruct (H (proj2 Htol) Hmax) as (g' & jhj & jhr & k & G & E & Hk & G0 & Gk & HV & HB & HE). clear H. fold J in HV, HB, HE. fold delta in HV, HB, HE.
    exists g', jhj, jhr, k. split; [exact E|]. split; [exact Hk|].
    assert (U : forall i, (i <= k)%nat -> pure_phases n nchan 1 ncorr (G i)).
    { intros [|i] Hi; [rewrite G0; exact Hunit|]. intros t a f s c Ht Hf Hs Hc.
      destruct (HV t a f s c Ht Hf Hs Hc) as (_ & _ & S1). rewrite S1 by lia. apply cis_norm2. }
    assert (ST : forall i, (i < k)%nat -> cost (G (S i)) <= cost (G i) - 2 * rsum n (fun t => rsum nchan (fun f => rsum ncorr (fun c => rsum nant (fun a => J t a f 0%nat c * (delta (G i) t a f 0%nat c * delta (G i) t a f 0%nat c)))))).
    { intros i Hi. apply cost_step; [apply U; lia|]. intros t a f c Ht Hf Hc. apply (HV t a f 0%nat c Ht Hf); auto; lia. }
    assert (DR : forall i, (i < k)%nat -> cost (G i) + INR i * (2 * Jmin * (tol * tol)) <= cost (G 0%nat)).
    { induction i as [|i IH]; intros Hi; [cbn [INR]; lra|].
      specialize (IH ltac:(lia)). specialize (ST i ltac:(lia)). generalize (gain_drop (G i) tol ltac:(lra) (HB i Hi)). rewrite S_INR. lra. }
    assert (FD : cost (j_at g') + INR (k - 1) * (2 * Jmin * (tol * tol)) <= cost (j_at g)).
    { rewrite Gk, <- G0. specialize (DR (k - 1)%nat ltac:(lia)). specialize (ST (k - 1)%nat ltac:(lia)).
      replace (S (k - 1)) with k in ST by lia. generalize (drop_nonneg (G (k - 1)%nat)). lra. }
    split; [rewrite Gk; apply U; lia|]. split; [exact FD|]. intros HC.
    assert (LT : (k < maxiter)%nat).
    { destruct (Nat.eq_dec k maxiter) as [->|]; [|lia]. generalize (cost_nonneg (j_at g')). lra. }
    split; [exact LT|]. intros t a f c Hin. generalize Hin. intros (Ht & Ha & Hf & _ & Hc).
    destruct (HV t a f 0%nat c Ht Hf ltac:(lia) Hc) as (E1 & E2 & _). rewrite E1, E2. specialize (HE LT t a f 0%nat c Hin).
    unfold delta, gn_delta in HE.
    match type of HE with Rabs (/ 2 * (?x / ?y)) <= _ => set (X := x) in *; assert (P : 0 < y) by (apply Rlt_le_trans with Jmin; auto) end.
    match goal with |- Rabs ?z <= _ => change z with X end.
    unfold Rdiv in HE. rewrite !Rabs_mult, (Rabs_pos_eq (/ 2)), (Rabs_pos_eq (/ J t a f 0%nat c)) in HE by (try lra; apply Rlt_le, Rinv_0_lt_compat; exact P).
    apply Rmult_le_reg_r with (/ J t a f 0%nat c); [now apply Rinv_0_lt_compat|].
    replace (2 * tol * J t a f 0%nat c * / J t a f 0%nat c) with (2 * tol) by (field; lra). lra.
  Qed.
End Run.
