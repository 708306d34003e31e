(* C122: the whole run. *)
From Coq Require Import Reals Lra Lia Psatz.
From Verif Require Import Prelude PreludeFacts CRing CplxR DftSpec DftProofs CleanProofs RdftProofs3 HogModel HogSpec HogProofs IsoProofs RoundSpec RhogModel RhogSpec RhogProofs.
Open Scope R_scope.

Section Run.
  Context (fl : R -> R) (u : R) (Hfl : rounding fl u).
  Context (n : nat) (Hn : (0 < n)%nat) (psf : arr2 R) (Centre : psf (n - 1)%nat (n - 1)%nat = 1) (g : R) (Hg : 0 <= g <= 1) (dirty : arr2 R).
  (* Z holds the exact sums of the rounded components *)
  Definition kept (k : nat) (C R Z : arr2 R) : Prop :=
    (forall x y, 0 <= Z x y /\ (1 - u) ^ k * Z x y <= C x y <= (1 + u) ^ k * Z x y) /\
    (forall x y, in_image n n x y -> Rabs (R x y - (dirty x y - spread n Z psf x y)) <= gamma u k * Rabs (dirty x y) + gamma u (S k) * spread n Z (absolute psf) x y) /\
    machine fl n R.
  Lemma kept_start C : (forall x y, C x y = 0) -> machine fl n dirty -> kept 0 C dirty (fun _ _ => 0).
  Proof.
    intros HC M. split; [|split; [|exact M]].
    - intros x y. rewrite HC. lra.
    - intros x y I. assert (forall P, spread n (fun _ _ => 0) P x y = 0) as E.
      { intros P. unfold spread. transitivity (rsum n (fun _ => 0)); [|apply (rsum_0 n)]. apply (rsum_ext n). intros p _. transitivity (rsum n (fun _ => 0)); [|apply (rsum_0 n)]. apply (rsum_ext n). intros q _. ring. }
      rewrite !E. replace (dirty x y - (dirty x y - 0)) with 0 by ring. rewrite Rabs_R0. unfold gamma. simpl. lra.
  Qed.
  Lemma spread_bound Z x y : (forall x y, 0 <= Z x y) -> Rabs (spread n Z psf x y) <= spread n Z (absolute psf) x y.
  Proof.
    intros HZ. unfold spread.
    eapply Rle_trans; [apply (rsum_abs n)|]. apply (rsum_le n). intros p _.
    eapply Rle_trans; [apply (rsum_abs n)|]. apply (rsum_le n). intros q _.
    rewrite Rabs_mult, (Rabs_right (Z p q)) by (apply Rle_ge, HZ). apply Rle_refl.
  Qed.
  Lemma looser k C Z : 0 <= Z -> (1 - u) ^ k * Z <= C <= (1 + u) ^ k * Z -> (1 - u) ^ S k * Z <= C <= (1 + u) ^ S k * Z.
  Proof.
    intros H0 [H1 H2]. pose proof (u_pos fl u Hfl) as Hu. cbn [pow].
    assert (0 <= (1 - u) ^ k * Z) by (apply Rmult_le_pos; [apply pow_le; lra|exact H0]). assert (0 <= (1 + u) ^ k * Z) by (apply Rmult_le_pos; [apply pow_le; lra|exact H0]). rewrite !Rmult_assoc. split; nra.
  Qed.
  Lemma kept_step k C R Z v p q : kept k C R Z -> in_image n n p q -> R p q = v -> 0 <= v ->
    let C' := rbuild_cleanmap fl C v g p q in let R' := rupdate_residual fl R v g p q n psf in
    kept (S k) C' R' (upd2 Z p q (Z p q + fl (g * v))) /\ 0 <= R' p q.
  Proof.
    intros (HZ & HR & HM) P Ev Hv C' R'. pose proof (u_pos fl u Hfl) as Hu.
    set (c := fl (g * v)). assert (Hc : 0 <= c) by (apply (fl_pos fl u Hfl); nra).
    assert (HZ0 : forall x y, 0 <= Z x y) by (intros; apply HZ).
    split; [split; [|split]|].
    - intros x y. unfold C', rbuild_cleanmap. rewrite (Rmult_comm v g). fold c.
      destruct (Nat.eq_dec x p) as [->|Nx]; [destruct (Nat.eq_dec y q) as [->|Ny]|].
      + rewrite !upd2_eq. split; [specialize (HZ0 p q); lra|]. replace (S k) with (k + 1)%nat by lia. apply (component_err fl u Hfl); try assumption; apply HZ.
      + rewrite !upd2_neq by (right; auto). split; [apply HZ0|]. apply looser; apply HZ.
      + rewrite !upd2_neq by (left; auto). split; [apply HZ0|]. apply looser; apply HZ.
    - intros x y I. rewrite !spread_put by assumption. unfold R', rupdate_residual. fold c.
      replace (n - 1 - p + x)%nat with (n - 1 + x - p)%nat by (destruct P, I; lia). replace (n - 1 - q + y)%nat with (n - 1 + y - q)%nat by (destruct P, I; lia).
      replace (c * absolute psf (n - 1 + x - p)%nat (n - 1 + y - q)%nat) with (Rabs (c * psf (n - 1 + x - p)%nat (n - 1 + y - q)%nat))
        by (rewrite Rabs_mult, (Rabs_right c) by lra; reflexivity).
      apply (subtract_err fl u Hfl); [apply HR, I|apply spread_bound, HZ0|apply spread_nonneg, HZ0].
    - intros x y I. unfold R', rupdate_residual. apply (fl_idem fl u Hfl).
    - unfold R', rupdate_residual. fold c. replace (n - 1 - p + p)%nat with (n - 1)%nat by (destruct P; lia). replace (n - 1 - q + q)%nat with (n - 1)%nat by (destruct P; lia).
      rewrite Centre, Rmult_1_r. apply (fl_pos fl u Hfl). rewrite Ev. unfold c. rewrite (fl_idem fl u Hfl).
      assert (fl (g * v) <= fl v) by (apply (fl_mono fl u Hfl); nra). rewrite <- Ev in H at 2. rewrite (HM p q P) in H. rewrite Ev in H. lra.
  Qed.
  Lemma kept_loop thr : forall fuel k C R Z p q v C' R', kept k C R Z -> is_max n n R v -> in_image n n p q -> R p q = v -> 0 <= v ->
    rclean_loop fl fuel n psf g thr C R p q v = Ok (C', R') -> exists j Z', (j <= k + fuel)%nat /\ kept j C' R' Z' /\ (forall w, is_max n n R' w -> 0 <= w).
  Proof.
    induction fuel as [|fuel IH]; intros k C D Z p q v C' R' Kp Mx P Ev Hv E; cbn [rclean_loop] in E.
    - injection E as <- <-. exists k, Z. split; [lia|]. split; [exact Kp|]. intros w Mw. now rewrite (is_max_unique _ _ _ _ _ Mw Mx).
    - destruct (Rlt_dec thr (Rabs v)) as [T|T].
      + destruct (kept_step k C D Z v p q Kp P Ev Hv) as (K1 & Pos). cbv zeta in K1, Pos.
        set (C1 := rbuild_cleanmap fl C v g p q) in *. set (R1 := rupdate_residual fl D v g p q n psf) in *.
        destruct (find_peak_spec n n R1 Hn Hn) as (p1 & q1 & pm & qm & v1 & E1 & M1 & L1 & _). rewrite E1 in E. cbn [bind] in E.
        assert (V1 : 0 <= v1) by (destruct M1 as [_ M1]; specialize (M1 p q P); lra).
        destruct (IH (S k) C1 R1 _ p1 q1 v1 C' R' K1 M1 (proj1 L1) (proj1 (proj2 L1)) V1 E) as (j & Z' & J & Kj & W). exists j, Z'. split; [lia|]. now split.
      + injection E as <- <-. exists k, Z. split; [lia|]. split; [exact Kp|]. intros w Mw. now rewrite (is_max_unique _ _ _ _ _ Mw Mx).
  Qed.
  Lemma kept_loss j C R Z x y : kept j C R Z -> in_image n n x y ->
    Rabs (dirty x y - (R x y + spread n C psf x y)) <= cycle_loss u j (dirty x y) (spread n C (absolute psf) x y).
  Proof.
    intros (HZ & HR & _) I. pose proof (u_pos fl u Hfl) as Hu. assert (HZ0 : forall x y, 0 <= Z x y) by (intros; apply HZ).
    assert (P : 0 < (1 - u) ^ j) by (apply pow_lt; lra).
    assert (D : Rabs (spread n C psf x y - spread n Z psf x y) <= gamma u j * spread n Z (absolute psf) x y).
    { apply spread_abs. intros p q. destruct (HZ p q) as (Z0 & L & U). unfold gamma. apply Rabs_le.
      assert (B : 1 - (1 - u) ^ j <= (1 + u) ^ j - 1).
      { clear - Hu. enough (2 <= (1 + u) ^ j + (1 - u) ^ j) by lra. induction j as [|j IH]; [simpl; lra|]. cbn [pow].
        assert ((1 - u) ^ j <= (1 + u) ^ j) by (apply pow_incr; lra). nra. }
      split; nra. }
    assert (S1 : (1 - u) ^ j * spread n Z (absolute psf) x y <= spread n C (absolute psf) x y).
    { rewrite <- spread_scale. apply spread_le. intros p q i l. apply Rmult_le_compat_r; [apply Rabs_pos|apply HZ]. }
    unfold cycle_loss. specialize (HR x y I). set (a := spread n Z (absolute psf) x y) in *. set (b := spread n C (absolute psf) x y) in *.
    assert (Q : a <= / (1 - u) ^ j * b).
    { apply (Rmult_le_reg_l ((1 - u) ^ j)); [exact P|]. rewrite <- Rmult_assoc, Rinv_r, Rmult_1_l by lra. exact S1. }
    replace (dirty x y - (R x y + spread n C psf x y)) with (- (R x y - (dirty x y - spread n Z psf x y)) - (spread n C psf x y - spread n Z psf x y)) by ring.
    eapply Rle_trans; [apply Rabs_triang|]. rewrite !Rabs_Ropp.
    pose proof (grow_pos fl u Hfl j). pose proof (grow_pos fl u Hfl (S j)). unfold Rdiv.
    assert ((gamma u j + gamma u (S j)) * a <= (gamma u j + gamma u (S j)) * (/ (1 - u) ^ j * b)) by (apply Rmult_le_compat_l; lra). lra.
  Qed.
  Lemma loss_mono j k d a : (j <= k)%nat -> 0 <= a -> cycle_loss u j d a <= cycle_loss u k d a.
  Proof.
    intros H A. pose proof (u_pos fl u Hfl) as Hu. unfold cycle_loss.
    pose proof (grow_mono fl u Hfl j k H). pose proof (grow_mono fl u Hfl (S j) (S k) ltac:(lia)).
    pose proof (grow_pos fl u Hfl j). pose proof (grow_pos fl u Hfl (S j)). pose proof (Rabs_pos d).
    assert (P : 0 < (1 - u) ^ k) by (apply pow_lt; lra).
    assert (L : (1 - u) ^ k <= (1 - u) ^ j).
    { replace k with (j + (k - j))%nat by lia. rewrite pow_add. pose proof (pow_incr (1 - u) 1 (k - j) ltac:(lra)) as Q. rewrite pow1 in Q. assert (0 <= (1 - u) ^ j) by (apply pow_le; lra). nra. }
    apply Rplus_le_compat; [apply Rmult_le_compat_r; lra|]. apply Rmult_le_compat_r; [exact A|]. unfold Rdiv.
    apply Rmult_le_compat; try lra; [left; apply Rinv_0_lt_compat; lra|]. now apply Rinv_le_contravar.
  Qed.
  Theorem rounded_flux threshold niter C R : machine fl n dirty -> (exists x y, in_image n n x y /\ 0 <= dirty x y) ->
    rhogbom_clean fl n n dirty (2 * n) (2 * n) psf g threshold niter = Ok (C, R) ->
    (forall x y, in_image n n x y -> 0 <= C x y /\
      Rabs (dirty x y - (R x y + spread n C psf x y)) <= cycle_loss u (Z.to_nat (niter_of n niter + 1)) (dirty x y) (spread n C (absolute psf) x y)) /\
    (exists x y, in_image n n x y /\ 0 <= R x y) /\ machine fl n R.
  Proof.
    intros M (x0 & y0 & I0 & Pos) E. unfold rhogbom_clean in E. rewrite !Nat.eqb_refl in E. cbn [negb orb] in E.
    destruct (find_peak_spec n n dirty Hn Hn) as (p & q & pm & qm & v & E1 & Mx & L & _). rewrite E1 in E. cbn [bind] in E.
    assert (V : 0 <= v) by (destruct Mx as [_ Mx]; specialize (Mx x0 y0 I0); lra).
    destruct (kept_loop _ _ 0%nat _ _ _ p q v C R (kept_start _ (fun _ _ => eq_refl) M) Mx (proj1 L) (proj1 (proj2 L)) V E) as (j & Z & J & Kj & W).
    change (j <= Z.to_nat (niter_of n niter + 1))%nat in J.
    assert (C0 : forall x y, 0 <= C x y).
    { intros x y. destruct Kj as (HZ & _). destruct (HZ x y) as (Z0 & L1 & _). pose proof (u_pos fl u Hfl). assert (0 <= (1 - u) ^ j) by (apply pow_le; lra). nra. }
    split; [|split].
    - intros x y I. split; [apply C0|]. eapply Rle_trans; [exact (kept_loss j C R Z x y Kj I)|]. apply loss_mono; [exact J|apply spread_nonneg, C0].
    - pose proof (amax_spec n n R Hn Hn) as A. specialize (W _ A). destruct A as [(x & y & I & Ex) _]. exists x, y. split; [exact I|]. rewrite Ex. exact W.
    - apply Kj.
  Qed.
End Run.
Theorem rounded_total fl n dirty psf g threshold niter : (0 < n)%nat -> exists C R, rhogbom_clean fl n n dirty (2 * n) (2 * n) psf g threshold niter = Ok (C, R).
Proof.
  intros Hn. unfold rhogbom_clean. rewrite !Nat.eqb_refl. cbn [negb orb].
  destruct (find_peak_spec n n dirty Hn Hn) as (p & q & pm & qm & v & E1 & _). rewrite E1. cbn [bind].
  generalize (match threshold with Some t => fl (t * Rabs v) | None => fl (fl (2 / 10) * Rabs v) end) as thr. generalize (fun _ _ : nat => 0) as C0.
  generalize (Z.to_nat (match niter with Some k => k | None => 3 * Z.of_nat n end + 1)) as fuel. clear E1. intros fuel. revert dirty p q v.
  induction fuel as [|fuel IH]; intros D p q v C0 thr; cbn [rclean_loop]; [eauto|]. destruct (Rlt_dec thr (Rabs v)); [|eauto].
  destruct (find_peak_spec n n (rupdate_residual fl D v g p q n psf) Hn Hn) as (p1 & q1 & pm1 & qm1 & v1 & E1 & _). rewrite E1. cbn [bind]. apply IH.
Qed.
