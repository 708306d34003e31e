(* Proofs for C34: the frequency grid *)
From Coq Require Import Reals Lra.
From Verif Require Import Prelude PreludeFacts CRing CplxR BeamModel BeamSpec.
Open Scope R_scope.

Lemma increasing_lt n g i j : increasing n g -> (i < j)%nat -> (j < n)%nat -> g i < g j.
Proof.
  intros H Hij. induction Hij as [|j Hij IH]; intros Hn.
  - now apply H.
  - eapply Rlt_trans; [apply IH; lia|apply H; lia].
Qed.
Lemma increasing_le n g i j : increasing n g -> (i <= j)%nat -> (j < n)%nat -> g i <= g j.
Proof. intros H Hij Hn. destruct (Nat.eq_dec i j) as [->|E]; [lra|]. left. apply (increasing_lt n); auto. lia. Qed.

Lemma search_spec n g freq : increasing n g -> forall fuel lower upper,
  (0 <= lower)%Z -> (upper < Z.of_nat n)%Z -> (lower <= upper + 1)%Z -> (upper - lower + 1 < Z.of_nat fuel)%Z ->
  (forall i, (i < n)%nat -> (Z.of_nat i < lower)%Z -> g i < freq) ->
  (forall i, (i < n)%nat -> (upper < Z.of_nat i)%Z -> freq < g i) ->
  exists r, (let '(lo, up) := grid_search fuel g freq lower upper in Z.min lo up) = r /\ (-1 <= r < Z.of_nat n)%Z /\
    (forall i, (i < n)%nat -> (Z.of_nat i <= r)%Z -> g i <= freq) /\ (forall i, (i < n)%nat -> (r < Z.of_nat i)%Z -> freq < g i).
Proof.
  intros HI. induction fuel as [|fuel IH]; intros lower upper H0 H1 H2 HF HL HU; [lia|]. cbn [grid_search].
  destruct (Z.leb_spec lower upper) as [Hle|Hgt].
  - set (mid := (lower + (upper - lower) / 2)%Z).
    assert (Hm : (lower <= mid <= upper)%Z).
    { unfold mid. pose proof (Z.div_pos (upper - lower) 2). pose proof (Z.div_le_upper_bound (upper - lower) 2 (upper - lower)). lia. }
    destruct (Rlt_dec (g (Z.to_nat mid)) freq) as [L|L].
    + apply IH; try lia; auto. intros i Hi Hlt. eapply Rle_lt_trans; [|exact L]. apply (increasing_le n); auto; lia.
    + destruct (Rlt_dec freq (g (Z.to_nat mid))) as [U|U].
      * apply IH; try lia; auto. intros i Hi Hlt. eapply Rlt_le_trans; [exact U|]. apply (increasing_le n); auto; lia.
      * assert (E : g (Z.to_nat mid) = freq) by lra. exists mid. repeat split; try lia.
        -- intros i Hi Hlt. rewrite <- E. apply (increasing_le n); auto; lia.
        -- intros i Hi Hlt. rewrite <- E. apply (increasing_lt n); auto; lia.
  - exists upper. repeat split; try lia.
    + intros i Hi Hlt. left. apply HL; auto. lia.
    + intros i Hi Hlt. apply HU; auto.
Qed.

Lemma freq_grid_spec n g f : (2 <= n)%nat -> increasing n g ->
  exists sc w k, freq_grid_interp n g f = (sc, w, Z.of_nat k) /\ freq_plane n g f sc w k /\ (S k < n)%nat.
Proof.
  intros Hn HI. destruct (search_spec n g f HI (S n) 0 (Z.of_nat n - 1)) as (r & Er & Hr & HL & HU); try lia.
  unfold freq_grid_interp. destruct (grid_search (S n) g f 0 (Z.of_nat n - 1)) as [lo up]. rewrite Er.
  destruct (Z.eqb_spec r (-1)) as [E|E].
  - exists (f / g 0%nat), 1, 0%nat. split; [reflexivity|]. split; [|lia]. constructor. apply HU; lia.
  - destruct (Z.eqb_spec (r + 1) (Z.of_nat n)) as [E'|E'].
    + exists (f / g (n - 1)%nat), 0, (n - 2)%nat. split; [repeat f_equal; lia|]. split; [|lia]. apply above. apply HL; lia.
    + exists 1, ((g (S (Z.to_nat r)) - f) / (g (S (Z.to_nat r)) - g (Z.to_nat r))), (Z.to_nat r).
      assert (Es : Z.to_nat (r + 1) = S (Z.to_nat r)) by lia. rewrite Es. split; [repeat f_equal; lia|]. split; [|lia].
      apply within; [lia|]. split; [apply HL; lia|apply HU; lia].
Qed.
(* the three cases exclude each other *)
Lemma freq_plane_unique n g f sc w k sc' w' k' : (2 <= n)%nat -> increasing n g ->
  freq_plane n g f sc w k -> freq_plane n g f sc' w' k' -> sc = sc' /\ w = w' /\ k = k'.
Proof.
  intros Hn HI H H'.
  assert (A : forall i, (i < n)%nat -> g 0%nat <= g i) by (intros i Hi; apply (increasing_le n); auto; lia).
  assert (B : forall i, (i < n)%nat -> g i <= g (n - 1)%nat) by (intros i Hi; apply (increasing_le n); auto; lia).
  destruct H as [H|H|k Hk H]; destruct H' as [H'|H'|k' Hk' H']; auto.
  - pose proof (A (n - 1)%nat ltac:(lia)). lra.
  - pose proof (A k' ltac:(lia)). lra.
  - pose proof (A (n - 1)%nat ltac:(lia)). lra.
  - pose proof (B (S k') ltac:(lia)). lra.
  - pose proof (A k ltac:(lia)). lra.
  - pose proof (B (S k) ltac:(lia)). lra.
  - assert (k = k') as ->; auto. destruct (Nat.lt_trichotomy k k') as [L|[E|L]]; auto; exfalso.
    + pose proof (increasing_le n g (S k) k' HI ltac:(lia) ltac:(lia)). lra.
    + pose proof (increasing_le n g (S k') k HI ltac:(lia) ltac:(lia)). lra.
Qed.
Lemma freq_plane_facts n g f sc w k : (2 <= n)%nat -> increasing n g -> freq_plane n g f sc w k ->
  0 <= w <= 1 /\ w * g k + (1 - w) * g (S k) = clamp (g 0%nat) (g (n - 1)%nat) f /\
  (0 < g 0%nat -> sc * clamp (g 0%nat) (g (n - 1)%nat) f = f) /\ (g 0%nat <= f <= g (n - 1)%nat -> 0 < g 0%nat -> sc = 1).
Proof.
  intros Hn HI H.
  assert (A : g 0%nat < g (n - 1)%nat) by (apply (increasing_lt n); auto; lia).
  unfold clamp. destruct H as [H|H|k Hk H].
  - rewrite (Rmin_left f) by lra. rewrite Rmax_left by lra. repeat split; try lra. intros P. field. lra.
  - replace (S (n - 2)) with (n - 1)%nat by lia. rewrite (Rmin_right f) by lra. rewrite Rmax_right by lra.
    repeat split; try lra. intros P. field. lra. intros [_ P] Q. replace f with (g (n - 1)%nat) by lra. field. lra.
  - assert (D : g k < g (S k)) by lra.
    pose proof (increasing_le n g 0 k HI ltac:(lia) ltac:(lia)). pose proof (increasing_le n g (S k) (n - 1) HI ltac:(lia) ltac:(lia)).
    rewrite (Rmin_left f) by lra. rewrite Rmax_right by lra. split; [|split; [field; lra|split; lra]].
    split; [apply Rmult_le_pos; [lra|left; apply Rinv_0_lt_compat; lra]|].
    apply (Rmult_le_reg_r (g (S k) - g k)); [lra|]. unfold Rdiv. rewrite Rmult_assoc, Rinv_l by lra. lra.
Qed.
