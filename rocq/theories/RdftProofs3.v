From Coq Require Import Reals Lra Lia String.
From Verif Require Import Prelude PreludeFacts CRing CplxR LoopFacts RimeModel RimeSpec DftModel DftSpec DftProofs RoundModel RoundSpec RavgSpec RavgProofs RdftModel RdftSpec RdftProofs RdftProofs2.
Open Scope R_scope.

Lemma rsum_S n f : rsum (S n) f = rsum n f + f n. Proof. reflexivity. Qed.
Lemma rsum_le n f g : (forall i, (i < n)%nat -> f i <= g i) -> rsum n f <= rsum n g.
Proof. induction n as [|n IH]; intros H; [apply Rle_refl|]. rewrite !rsum_S. apply Rplus_le_compat; [apply IH; intros; apply H; lia|apply H; lia]. Qed.
Lemma rsum_abs n f : Rabs (rsum n f) <= rsum n (fun i => Rabs (f i)).
Proof.
  induction n as [|n IH]; [change (Rabs 0 <= 0); rewrite Rabs_R0; lra|]. rewrite !rsum_S. eapply Rle_trans; [apply Rabs_triang|]. apply Rplus_le_compat_r, IH.
Qed.
Lemma rsum_dist n f g b : (forall i, (i < n)%nat -> Rabs (f i - g i) <= b i) -> Rabs (rsum n f - rsum n g) <= rsum n b.
Proof.
  intros H. induction n as [|n IH]; [change (Rabs (0 - 0) <= 0); rewrite Rminus_0_r, Rabs_R0; lra|]. rewrite !rsum_S.
  replace (rsum n f + f n - (rsum n g + g n)) with ((rsum n f - rsum n g) + (f n - g n)) by ring.
  eapply Rle_trans; [apply Rabs_triang|]. apply Rplus_le_compat; [apply IH; intros; apply H; lia|apply H; lia].
Qed.
Lemma fst_csum n (f : nat -> RC) : fst (csum n f) = rsum n (fun i => fst (f i)).
Proof. induction n as [|n IH]; [reflexivity|]. rewrite rsum_S, <- IH. reflexivity. Qed.
Lemma snd_csum n (f : nat -> RC) : snd (csum n f) = rsum n (fun i => snd (f i)).
Proof. induction n as [|n IH]; [reflexivity|]. rewrite rsum_S, <- IH. reflexivity. Qed.
Lemma sign_one conv s : im_sign conv s -> s = 1 \/ s = -1.
Proof. intros []; auto. Qed.

Section Errors.
  Context (fl : R -> R) (u : R) (Hu : roundoff fl u) (fcos fsin : R -> R) (e : R) (He : trig_error fcos fsin e) (c uc : R) (Hc : constant_error c uc).
  Let A := rounded_ops fl fcos fsin c.

  Lemma phase_delay_error nsrc nrow nchan lm uvw freq conv k : phase_delay_in A nsrc nrow nchan lm uvw freq conv = Ok k ->
    exists sgn, im_sign conv sgn /\ forall s r f, (s < nsrc)%nat -> (r < nrow)%nat -> (f < nchan)%nat -> above_horizon lm s ->
      within (delay_error u uc e lm uvw freq s r f) (k s r f) (cis (sgn * src_delay lm uvw freq s r f)).
  Proof using Hu He Hc.
    intros E. destruct (phase_value A _ _ _ _ _ _ _ _ E) as (sgn & S & V). exists sgn. split; [exact S|]. intros s r f Hs Hr Hf H.
    rewrite V by assumption. unfold within. cbn [fst snd cis]. apply (delay_near fl u Hu fcos fsin e He c uc Hc); [exact (sign_one _ _ S)|exact H].
  Qed.

  Lemma acc_near n j (t' t m : nat -> R) (use : nat -> bool) : (forall i, (i < n)%nat -> use i = true -> near u j (t' i) (t i) (m i)) -> (forall i, (i < n)%nat -> 0 <= m i) ->
    near u (j + n) (acc n (fun i x => if use i then fl (x + t' i) else x) 0) (rsum n (fun i => if use i then t i else 0)) (rsum n m).
  Proof using Hu.
    induction n as [|n IH]; intros H H0.
    - cbn [acc]. change (near u (j + 0) 0 0 0). split; rewrite ?Rminus_0_r, Rabs_R0; lra.
    - cbn [acc]. rewrite !rsum_S. assert (IH' := IH (fun i Hi => H i (Nat.lt_lt_succ_r _ _ Hi)) (fun i Hi => H0 i (Nat.lt_lt_succ_r _ _ Hi))). pose proof (H n (Nat.lt_succ_diag_r n)) as Hn.
      replace (j + S n)%nat with (S (j + n)) by lia. destruct (use n).
      + apply (near_fl fl u Hu), near_plus; [exact IH'|]. apply (near_mono fl u Hu j); [lia|exact (Hn eq_refl)].
      + rewrite Rplus_0_r. pose proof (H0 n (Nat.lt_succ_diag_r n)) as M. destruct IH' as [P Q].
        pose proof (gamma_mono fl u Hu (j + n) (S (j + n)) (Nat.le_succ_diag_r _)) as G. pose proof (gamma_pos fl u Hu (j + n)) as G0.
        pose proof (Rabs_pos (rsum n (fun i => if use i then t i else 0))) as R0. split; [|lra].
        eapply Rle_trans; [exact P|]. apply Rmult_le_compat; lra.
  Qed.
  Lemma fst_acc n (t : nat -> R * R) (use : nat -> bool) :
    fst (acc n (fun i x => if use i then plus_in A x (t i) else x) (0, 0)) = acc n (fun i x => if use i then fl (x + fst (t i)) else x) 0.
  Proof using. induction n as [|n IH]; [reflexivity|]. cbn [acc]. rewrite <- IH. destruct (use n); reflexivity. Qed.
  Lemma snd_acc n (t : nat -> R * R) (use : nat -> bool) :
    snd (acc n (fun i x => if use i then plus_in A x (t i) else x) (0, 0)) = acc n (fun i x => if use i then fl (x + snd (t i)) else x) 0.
  Proof using. induction n as [|n IH]; [reflexivity|]. cbn [acc]. rewrite <- IH. destruct (use n); reflexivity. Qed.

  Lemma near_two x y z w : near u 2 (fl (fl (x * y) - fl (z * w))) (x * y - z * w) (Rabs (x * y) + Rabs (z * w)).
  Proof using Hu. apply (near_fl fl u Hu), near_minus; apply (near_fl fl u Hu), near_self. Qed.
  Lemma near_two' x y z w : near u 2 (fl (fl (x * y) + fl (z * w))) (x * y + z * w) (Rabs (x * y) + Rabs (z * w)).
  Proof using Hu. apply (near_fl fl u Hu), near_plus; apply (near_fl fl u Hu), near_self. Qed.
  Lemma part_le x' x d y : Rabs (x' - x) <= d -> Rabs x <= 1 -> Rabs (x' * y) <= (1 + d) * Rabs y.
  Proof using.
    intros D B. rewrite Rabs_mult. apply Rmult_le_compat_r; [apply Rabs_pos|]. replace x' with ((x' - x) + x) by ring.
    eapply Rle_trans; [apply Rabs_triang|]. lra.
  Qed.
  Lemma part_dist x' x z' z d y w : Rabs (x' - x) <= d -> Rabs (z' - z) <= d ->
    Rabs (x' * y - z' * w - (x * y - z * w)) <= d * (Rabs y + Rabs w) /\ Rabs (x' * y + z' * w - (x * y + z * w)) <= d * (Rabs y + Rabs w).
  Proof using.
    intros P Q. pose proof (Rabs_pos y). pose proof (Rabs_pos w). split.
    - replace (x' * y - z' * w - (x * y - z * w)) with ((x' - x) * y + - ((z' - z) * w)) by ring. eapply Rle_trans; [apply Rabs_triang|].
      rewrite Rabs_Ropp, !Rabs_mult. nra.
    - replace (x' * y + z' * w - (x * y + z * w)) with ((x' - x) * y + (z' - z) * w) by ring. eapply Rle_trans; [apply Rabs_triang|].
      rewrite !Rabs_mult. nra.
  Qed.
  Lemma cos_le x : Rabs (cos x) <= 1. Proof using. apply Rabs_le. destruct (COS_bound x). lra. Qed.
  Lemma sin_le x : Rabs (sin x) <= 1. Proof using. apply Rabs_le. destruct (SIN_bound x). lra. Qed.

  (* a sum of products with rounded phasors *)
  Lemma sum_error n (t' t m : nat -> R) (use : nat -> bool) (x d z : nat -> R) :
    (forall i, (i < n)%nat -> use i = true -> near u 2 (t' i) (t i) (m i)) -> (forall i, (i < n)%nat -> 0 <= m i <= (1 + d i) * z i) ->
    (forall i, (i < n)%nat -> use i = true -> Rabs (t i - x i) <= d i * z i) -> (forall i, (i < n)%nat -> use i = false -> x i = 0) ->
    (forall i, (i < n)%nat -> 0 <= d i * z i) ->
    Rabs (acc n (fun i a => if use i then fl (a + t' i) else a) 0 - rsum n x) <= rsum n (fun i => (d i + gamma u (n + 2) * (1 + d i)) * z i).
  Proof using Hu.
    intros N M D Z P. destruct (acc_near n 2 t' t m use N (fun i Hi => proj1 (M i Hi))) as [E _]. replace (2 + n)%nat with (n + 2)%nat in E by lia.
    set (a := acc n _ 0) in *. set (b := rsum n (fun i => if use i then t i else 0)) in *.
    assert (B : Rabs (b - rsum n x) <= rsum n (fun i => d i * z i)).
    { apply rsum_dist. intros i Hi. destruct (use i) eqn:Ui; [now apply D|]. rewrite (Z i Hi Ui), Rminus_0_r, Rabs_R0. now apply P. }
    replace (a - rsum n x) with ((a - b) + (b - rsum n x)) by ring. eapply Rle_trans; [apply Rabs_triang|].
    replace (rsum n (fun i => (d i + gamma u (n + 2) * (1 + d i)) * z i)) with (gamma u (n + 2) * rsum n (fun i => (1 + d i) * z i) + rsum n (fun i => d i * z i)).
    2: { rewrite <- rsum_scale, <- rsum_add. apply rsum_ext. intros; ring. }
    apply Rplus_le_compat; [|exact B]. eapply Rle_trans; [exact E|]. apply Rmult_le_compat_l; [apply (gamma_pos fl u Hu)|]. apply rsum_le. intros i Hi. apply (M i Hi).
  Qed.

  Lemma im_to_vis_error nrows nsrc nchan ncorr (image : arr3 RC) uvw lm freq conv V : im_to_vis_in A nrows nsrc nchan ncorr image uvw lm freq conv = Ok V ->
    (forall s, (s < nsrc)%nat -> above_horizon lm s) ->
    exists sgn, im_sign conv sgn /\ forall r f i, (r < nrows)%nat -> (f < nchan)%nat -> (i < ncorr)%nat ->
      let d s := delay_error u uc e lm uvw freq s r f in
      within (rsum nsrc (fun s => (d s + gamma u (nsrc + 2) * (1 + d s)) * size (image s f i)))
        (V r f i) (csum nsrc (fun s => cmul (cis (sgn * src_delay lm uvw freq s r f)) (image s f i))).
  Proof using Hu He Hc.
    intros E H. destruct (im_to_vis_in_value A _ _ _ _ _ _ _ _ _ _ E) as (sgn & S & X). exists sgn. split; [exact S|]. intros r f i Hr Hf Hi d.
    rewrite X by assumption. clear E X. unfold within.
    assert (Dn : forall s, (s < nsrc)%nat -> let p := ph A (sgn * c) lm uvw freq s r f in let q := sgn * src_delay lm uvw freq s r f in
      Rabs (fcos p - cos q) <= d s /\ Rabs (fsin p - sin q) <= d s).
    { intros s Hs. apply (delay_near fl u Hu fcos fsin e He c uc Hc); [exact (sign_one _ _ S)|apply H; exact Hs]. }
    assert (D0 : forall s, (s < nsrc)%nat -> 0 <= d s) by (intros s Hs; eapply Rle_trans; [apply Rabs_pos|apply (Dn s Hs)]).
    assert (Z0 : forall s, 0 <= size (image s f i)) by (intros s; unfold size; pose proof (Rabs_pos (fst (image s f i))); pose proof (Rabs_pos (snd (image s f i))); lra).
    rewrite fst_acc, snd_acc, fst_csum, snd_csum. cbn [times_in fst snd A rounded_ops rmul rsub radd rcos rsin two_pi_c]. fold A. split.
    - apply (sum_error nsrc _ (fun s => fcos (ph A (sgn * c) lm uvw freq s r f) * fst (image s f i) - fsin (ph A (sgn * c) lm uvw freq s r f) * snd (image s f i))
        (fun s => Rabs (fcos (ph A (sgn * c) lm uvw freq s r f) * fst (image s f i)) + Rabs (fsin (ph A (sgn * c) lm uvw freq s r f) * snd (image s f i)))).
      + intros s Hs _. apply near_two.
      + intros s Hs. split; [apply Rplus_le_le_0_compat; apply Rabs_pos|]. destruct (Dn s Hs) as [P Q]. unfold size. rewrite Rmult_plus_distr_l. apply Rplus_le_compat; eapply part_le; [exact P|apply cos_le|exact Q|apply sin_le].
      + intros s Hs _. destruct (Dn s Hs) as [P Q]. destruct (part_dist _ _ _ _ _ (fst (image s f i)) (snd (image s f i)) P Q) as [T _]. exact T.
      + intros s Hs T. apply truthy_false in T. rewrite T. cbn. ring.
      + intros s Hs. apply Rmult_le_pos; auto.
    - apply (sum_error nsrc _ (fun s => fcos (ph A (sgn * c) lm uvw freq s r f) * snd (image s f i) + fsin (ph A (sgn * c) lm uvw freq s r f) * fst (image s f i))
        (fun s => Rabs (fcos (ph A (sgn * c) lm uvw freq s r f) * snd (image s f i)) + Rabs (fsin (ph A (sgn * c) lm uvw freq s r f) * fst (image s f i)))).
      + intros s Hs _. apply near_two'.
      + intros s Hs. split; [apply Rplus_le_le_0_compat; apply Rabs_pos|]. destruct (Dn s Hs) as [P Q]. unfold size. rewrite (Rplus_comm (Rabs (fst (image s f i)))), Rmult_plus_distr_l. apply Rplus_le_compat; eapply part_le; [exact P|apply cos_le|exact Q|apply sin_le].
      + intros s Hs _. destruct (Dn s Hs) as [P Q]. destruct (part_dist _ _ _ _ _ (snd (image s f i)) (fst (image s f i)) P Q) as [_ T].
        unfold size. rewrite (Rplus_comm (Rabs (fst (image s f i)))). exact T.
      + intros s Hs T. apply truthy_false in T. rewrite T. cbn. ring.
      + intros s Hs. apply Rmult_le_pos; auto.
  Qed.
  Lemma vis_to_im_error nrows nsrc nchan ncorr (vis W : arr3 RC) uvw lm freq flags conv img : vis_to_im_in A nrows nsrc nchan ncorr vis uvw lm freq flags conv = Ok img ->
    unflagged_part ncorr flags vis W ->
    exists sgn, im_sign conv sgn /\ forall s f i, (s < nsrc)%nat -> (f < nchan)%nat -> (i < ncorr)%nat -> above_horizon lm s ->
      let d r := delay_error u uc e lm uvw freq s r f in
      Rabs (img s f i - rsum nrows (fun r => re (cmul (cconj (cis (sgn * src_delay lm uvw freq s r f))) (W r f i)))) <=
        rsum nrows (fun r => (d r + gamma u (nrows + 2) * (1 + d r)) * size (W r f i)).
  Proof using Hu He Hc.
    intros E UW. destruct (vis_to_im_in_value A _ _ _ _ _ _ _ _ _ _ _ E) as (sgn & S & X). exists sgn. split; [exact S|]. intros s f i Hs Hf Hi H d.
    rewrite X by assumption. clear E X.
    assert (Dn : forall r, let p := ph A (- sgn * c) lm uvw freq s r f in let q := - sgn * src_delay lm uvw freq s r f in
      Rabs (fcos p - cos q) <= d r /\ Rabs (fsin p - sin q) <= d r).
    { intros r. apply (delay_near fl u Hu fcos fsin e He c uc Hc); [destruct (sign_one _ _ S) as [->| ->]; [right|left]; ring|exact H]. }
    assert (D0 : forall r, 0 <= d r) by (intros r; eapply Rle_trans; [apply Rabs_pos|apply (Dn r)]).
    assert (Z0 : forall r, 0 <= size (W r f i)) by (intros r; unfold size; pose proof (Rabs_pos (fst (W r f i))); pose proof (Rabs_pos (snd (W r f i))); lra).
    cbn [A rounded_ops rmul rsub radd rcos rsin two_pi_c]. fold A.
    pose (use := fun r => negb (any_flag ncorr (flags r f))).
    match goal with |- Rabs (?a - _) <= _ => assert (EQ : a = acc nrows (fun r x => if use r then fl (x + fl (fl (fcos (ph A (- sgn * c) lm uvw freq s r f) * fst (vis r f i)) -
      fl (fsin (ph A (- sgn * c) lm uvw freq s r f) * snd (vis r f i)))) else x) 0) end.
    { clear. induction nrows as [|n IH]; [reflexivity|]. cbn [acc]. rewrite IH. unfold use. destruct (any_flag ncorr (flags n f)); reflexivity. }
    rewrite EQ. clear EQ.
    assert (UW' : forall r, use r = true -> W r f i = vis r f i).
    { intros r Ur. apply (UW r f i). intros F. apply any_flag_spec in F. unfold use in Ur. rewrite F in Ur. discriminate. }
    assert (UW0 : forall r, use r = false -> W r f i = c0).
    { intros r Ur. apply (UW r f i). apply any_flag_spec. unfold use in Ur. now destruct (any_flag ncorr (flags r f)). }
    apply (sum_error nrows _ (fun r => fcos (ph A (- sgn * c) lm uvw freq s r f) * fst (vis r f i) - fsin (ph A (- sgn * c) lm uvw freq s r f) * snd (vis r f i))
        (fun r => Rabs (fcos (ph A (- sgn * c) lm uvw freq s r f) * fst (W r f i)) + Rabs (fsin (ph A (- sgn * c) lm uvw freq s r f) * snd (W r f i)))).
    - intros r Hr Ur. rewrite (UW' r Ur). apply near_two.
    - intros r Hr. split; [apply Rplus_le_le_0_compat; apply Rabs_pos|]. destruct (Dn r) as [P Q]. unfold size. rewrite Rmult_plus_distr_l.
      apply Rplus_le_compat; eapply part_le; [exact P|apply cos_le|exact Q|apply sin_le].
    - intros r Hr Ur. destruct (Dn r) as [P Q]. rewrite (UW' r Ur). destruct (part_dist _ _ _ _ _ (fst (vis r f i)) (snd (vis r f i)) P Q) as [T _].
      replace (re (cmul (cconj (cis (sgn * src_delay lm uvw freq s r f))) (vis r f i))) with
        (cos (- sgn * src_delay lm uvw freq s r f) * fst (vis r f i) - sin (- sgn * src_delay lm uvw freq s r f) * snd (vis r f i)); [exact T|].
      replace (- sgn * src_delay lm uvw freq s r f) with (- (sgn * src_delay lm uvw freq s r f)) by ring. rewrite cos_neg, sin_neg. reflexivity.
    - intros r Hr Ur. rewrite (UW0 r Ur). cbn. ring.
    - intros r Hr. apply Rmult_le_pos; auto.
  Qed.
End Errors.
