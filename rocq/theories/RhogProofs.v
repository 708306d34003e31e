(* C122: rounding errors of Hogbom CLEAN. *)
From Coq Require Import Reals Lra Lia Psatz.
From Verif Require Import Prelude PreludeFacts CRing CplxR DftSpec DftProofs CleanProofs RdftProofs3 HogModel HogSpec HogProofs IsoProofs RoundSpec RhogModel RhogSpec.
Open Scope R_scope.

(* ---------- without rounding it is the model of HogModel.v ---------- *)
Lemma loop_ext npix psf gamma thr : forall fuel C R p q v,
  rclean_loop (fun x => x) fuel npix psf gamma thr C R p q v = clean_loop fuel npix psf gamma thr C R p q v.
Proof.
  induction fuel as [|fuel IH]; intros C D p q v; cbn [rclean_loop clean_loop]; [reflexivity|].
  destruct (Rlt_dec thr (Rabs v)); [|reflexivity].
  change (rupdate_residual (fun x => x) D v gamma p q npix psf) with (update_residual D v gamma p q npix psf).
  change (rbuild_cleanmap (fun x => x) C v gamma p q) with (build_cleanmap C v gamma p q).
  destruct (find_peak npix npix (update_residual D v gamma p q npix psf)) as [[[[[? ?] ?] ?] ?]|]; cbn [bind]; [apply IH|reflexivity].
Qed.
Theorem unrounded ny nx dirty py px psf gamma threshold niter :
  rhogbom_clean (fun x => x) ny nx dirty py px psf gamma threshold niter = hogbom_clean ny nx dirty py px psf gamma threshold niter.
Proof.
  unfold rhogbom_clean, hogbom_clean. destruct (_ || _)%bool; [reflexivity|]. destruct (negb _); [reflexivity|].
  destruct (find_peak ny ny dirty) as [[[[[? ?] ?] ?] ?]|]; cbn [bind]; [|reflexivity]. destruct threshold; apply loop_ext.
Qed.

(* ---------- sums ---------- *)
Lemma spread_put n psf c p q S x y : in_image n n p q -> in_image n n x y ->
  spread n (upd2 S p q (S p q + c)) psf x y = spread n S psf x y + c * psf (n - 1 + x - p)%nat (n - 1 + y - q)%nat.
Proof.
  intros P I.
  pose proof (spread_cycle n psf 1 c p q S (fun _ _ => 0) _ _ x y P I (cycle_spec n psf 1 c p q S (fun _ _ => 0) (proj1 P) (proj2 P))) as H.
  unfold build_cleanmap, update_residual in H. rewrite Rmult_1_r in H.
  replace (n - 1 - p + x)%nat with (n - 1 + x - p)%nat in H by (destruct P, I; lia). replace (n - 1 - q + y)%nat with (n - 1 + y - q)%nat in H by (destruct P, I; lia). lra.
Qed.
Lemma spread_scale n k (A P : arr2 R) x y : spread n (fun p q => k * A p q) P x y = k * spread n A P x y.
Proof.
  unfold spread. rewrite <- (rsum_scale n (fun p => rsum n (fun q => A p q * P (n - 1 + x - p)%nat (n - 1 + y - q)%nat))). apply (rsum_ext n). intros p _.
  rewrite <- (rsum_scale n (fun q => A p q * P (n - 1 + x - p)%nat (n - 1 + y - q)%nat)). apply (rsum_ext n). intros q _. ring.
Qed.
Lemma spread_le n (A B P Q : arr2 R) x y : (forall p q i j, A p q * P i j <= B p q * Q i j) -> spread n A P x y <= spread n B Q x y.
Proof.
  intros H. unfold spread. apply (rsum_le n). intros p _. apply (rsum_le n). intros q _. apply H.
Qed.
Lemma spread_abs n (A B P : arr2 R) e x y : (forall p q, Rabs (A p q - B p q) <= e * B p q) ->
  Rabs (spread n A P x y - spread n B P x y) <= e * spread n B (absolute P) x y.
Proof.
  intros H. unfold spread. rewrite <- (rsum_scale n (fun p => rsum n (fun q => B p q * absolute P (n - 1 + x - p)%nat (n - 1 + y - q)%nat))).
  apply (rsum_dist n). intros p _. rewrite <- (rsum_scale n (fun q => B p q * absolute P (n - 1 + x - p)%nat (n - 1 + y - q)%nat)).
  apply (rsum_dist n). intros q _. rewrite <- Rmult_minus_distr_r, Rabs_mult. specialize (H p q). unfold absolute.
  pose proof (Rabs_pos (P (n - 1 + x - p)%nat (n - 1 + y - q)%nat)). nra.
Qed.
Lemma spread_nonneg n (A P : arr2 R) x y : (forall p q, 0 <= A p q) -> 0 <= spread n A (absolute P) x y.
Proof.
  intros H. unfold spread. apply (rsum_nonneg n). intros p _. apply (rsum_nonneg n). intros q _. apply Rmult_le_pos; [apply H|apply Rabs_pos].
Qed.

(* ---------- one cycle ---------- *)
Section Rounding.
  Context (fl : R -> R) (u : R) (Hfl : rounding fl u).
  Lemma u_pos : 0 <= u < 1. Proof. destruct Hfl as ([U _] & L & _). lra. Qed.
  Lemma fl_err x : Rabs (fl x - x) <= u * Rabs x. Proof. apply Hfl. Qed.
  Lemma fl_z : fl 0 = 0.
  Proof. pose proof (fl_err 0) as H. rewrite Rabs_R0, Rmult_0_r in H. pose proof (Rabs_pos (fl 0 - 0)). assert (Z : Rabs (fl 0 - 0) = 0) by lra.
    destruct (Req_dec (fl 0 - 0) 0) as [E|E]; [lra|]. apply Rabs_no_R0 in E. contradiction. Qed.
  Lemma fl_mono x y : x <= y -> fl x <= fl y. Proof. apply Hfl. Qed.
  Lemma fl_idem x : fl (fl x) = fl x. Proof. apply Hfl. Qed.
  Lemma fl_pos x : 0 <= x -> 0 <= fl x. Proof. intros H. rewrite <- fl_z. now apply fl_mono. Qed.
  Lemma grow_mono j k : (j <= k)%nat -> gamma u j <= gamma u k.
  Proof. intros H. unfold gamma. pose proof u_pos. pose proof (Rle_pow (1 + u) j k ltac:(lra) H). lra. Qed.
  Lemma grow_pos k : 0 <= gamma u k.
  Proof. pose proof (grow_mono 0 k ltac:(lia)) as H. unfold gamma at 1 in H. simpl in H. lra. Qed.
  Lemma grow_S k : gamma u (S k) = (1 + u) * gamma u k + u.
  Proof. unfold gamma. simpl. ring. Qed.
  (* r stands for d minus what a sum of terms of total size a has taken away; s is the rounded product of c and b *)
  Lemma subtract_err k r d t a c b : Rabs (r - (d - t)) <= gamma u k * Rabs d + gamma u (S k) * a -> Rabs t <= a -> 0 <= a ->
    Rabs (fl (r - fl (c * b)) - (d - (t + c * b))) <= gamma u (S k) * Rabs d + gamma u (S (S k)) * (a + Rabs (c * b)).
  Proof.
    intros H T A. pose proof u_pos. pose proof (fl_err (c * b)) as E1. pose proof (fl_err (r - fl (c * b))) as E2.
    set (m := c * b) in *. set (s := fl m) in *. pose proof (Rabs_pos m). pose proof (Rabs_pos d).
    assert (B : Rabs (r - s) <= Rabs (r - (d - t)) + Rabs d + Rabs t + Rabs m + Rabs (s - m)).
    { replace (r - s) with ((r - (d - t)) + d - t - m - (s - m)) by ring.
      eapply Rle_trans; [apply Rabs_triang|]. rewrite Rabs_Ropp. apply Rplus_le_compat_r.
      eapply Rle_trans; [apply Rabs_triang|]. rewrite Rabs_Ropp. apply Rplus_le_compat_r.
      eapply Rle_trans; [apply Rabs_triang|]. rewrite Rabs_Ropp. apply Rplus_le_compat_r. apply Rabs_triang. }
    assert (G : Rabs (fl (r - s) - (d - (t + m))) <= Rabs (fl (r - s) - (r - s)) + Rabs (r - (d - t)) + Rabs (s - m)).
    { replace (fl (r - s) - (d - (t + m))) with ((fl (r - s) - (r - s)) + (r - (d - t)) - (s - m)) by ring.
      eapply Rle_trans; [apply Rabs_triang|]. rewrite Rabs_Ropp. apply Rplus_le_compat_r. apply Rabs_triang. }
    assert (E3 : Rabs (fl (r - s) - (r - s)) <= u * (gamma u k * Rabs d + gamma u (S k) * a + Rabs d + a + Rabs m + u * Rabs m)).
    { eapply Rle_trans; [exact E2|]. apply Rmult_le_compat_l; [lra|]. lra. }
    assert (M : (u + u * (1 + u)) * Rabs m <= gamma u (S (S k)) * Rabs m).
    { apply Rmult_le_compat_r; [assumption|]. pose proof (grow_mono 2 (S (S k)) ltac:(lia)) as Gm. unfold gamma at 1 in Gm. simpl in Gm. lra. }
    rewrite (grow_S (S k)). rewrite (grow_S (S k)) in M. pose proof (grow_S k) as Gk.
    assert (Dd : gamma u (S k) * Rabs d = (1 + u) * gamma u k * Rabs d + u * Rabs d) by (rewrite Gk; ring).
    rewrite Dd. lra.
  Qed.
  Lemma component_err k C S c : 0 <= S -> 0 <= c -> (1 - u) ^ k * S <= C <= (1 + u) ^ k * S ->
    (1 - u) ^ (k + 1) * (S + c) <= fl (C + c) <= (1 + u) ^ (k + 1) * (S + c).
  Proof.
    intros HS Hc [L U]. pose proof u_pos. pose proof (fl_err (C + c)) as E.
    assert (P1 : 0 <= (1 - u) ^ k) by (apply pow_le; lra). assert (P2 : 1 <= (1 + u) ^ k) by (apply pow_R1_Rle; lra).
    assert (P3 : (1 - u) ^ k <= 1). { pose proof (pow_incr (1 - u) 1 k ltac:(lra)) as Z. rewrite pow1 in Z. exact Z. }
    assert (HC : 0 <= C) by nra. rewrite (Rabs_right (C + c)) in E by lra.
    assert (A : Rabs (fl (C + c) - (C + c)) <= u * (C + c)) by exact E. apply abs_le_inv in A. rewrite !pow_add, !pow_1. split.
    - apply Rle_trans with ((1 - u) * (C + c)); [|lra]. rewrite (Rmult_comm ((1 - u) ^ k)), Rmult_assoc. apply Rmult_le_compat_l; [lra|]. nra.
    - apply Rle_trans with ((1 + u) * (C + c)); [lra|]. rewrite (Rmult_comm ((1 + u) ^ k)), Rmult_assoc. apply Rmult_le_compat_l; [lra|]. nra.
  Qed.
End Rounding.
