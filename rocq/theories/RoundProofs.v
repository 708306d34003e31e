(* Rounding: errors of sums and products of complex numbers. *)
From Coq Require Import Reals Lra Lia Psatz.
From Flocq Require Import Core Relative.
From Verif Require Import Prelude CRing CplxR PredictModel RoundModel RoundSpec.
Open Scope R_scope.

Lemma nearest_roundoff p : (0 < p)%Z -> roundoff (nearest p) (bpow radix2 (- p)).
Proof.
  intros Hp. split; [apply bpow_ge_0|]. intros x. unfold nearest.
  pose proof (relative_error_N_FLX radix2 p Hp (fun x => negb (Z.even x)) x) as H.
  replace (/ 2 * bpow radix2 (- p + 1)) with (bpow radix2 (- p)) in H; [exact H|].
  rewrite bpow_plus. change (bpow radix2 1) with 2. field.
Qed.

Lemma size_pos z : 0 <= size z.
Proof. unfold size. pose proof (Rabs_pos (fst z)). pose proof (Rabs_pos (snd z)). lra. Qed.

Section Near.
  Context (fl : R -> R) (u : R) (Hu : roundoff fl u).
  Definition grow (k : nat) : R := (1 + u) ^ k.
  Lemma grow_ge1 k : 1 <= grow k.
  Proof. unfold grow. apply pow_R1_Rle. destruct Hu. lra. Qed.
  Lemma grow_mono j k : (j <= k)%nat -> grow j <= grow k.
  Proof. intros H. unfold grow. apply Rle_pow; [destruct Hu; lra|exact H]. Qed.
  Lemma grow_add j k : grow (j + k) = grow j * grow k.
  Proof. unfold grow. apply pow_add. Qed.
  Lemma grow_1 : grow 1 = 1 + u.
  Proof. unfold grow. simpl. ring. Qed.

  (* x' is computed with k roundings in a row for x, whose terms have total size m *)
  Definition near (k : nat) (x' x : R * R) (m : R) : Prop := apart x' x <= (grow k - 1) * m /\ size x <= m.

  Lemma near_m k x' x m : near k x' x m -> 0 <= m.
  Proof. intros [_ H]. pose proof (size_pos x). lra. Qed.
  Lemma near_mono j k x' x m : (j <= k)%nat -> near j x' x m -> near k x' x m.
  Proof. intros H N. pose proof (near_m _ _ _ _ N). destruct N as [N1 N2]. split; [|exact N2]. pose proof (grow_mono j k H). nra. Qed.
  Lemma near_self k x : near k x x (size x).
  Proof.
    apply (near_mono 0 k); [lia|]. split; [|lra]. unfold apart, grow. simpl. rewrite !Rminus_diag_eq, Rabs_R0 by reflexivity. lra.
  Qed.
  Lemma near_0 k : near k (0, 0) (0, 0) 0.
  Proof. pose proof (near_self k (0, 0)) as H. unfold size in H. cbn in H. rewrite Rabs_R0, Rplus_0_r in H. exact H. Qed.
  Lemma near_1 k : near k (1, 0) (1, 0) 1.
  Proof. pose proof (near_self k (1, 0)) as H. unfold size in H. cbn in H. rewrite Rabs_R0, Rplus_0_r, Rabs_R1 in H. exact H. Qed.
  Lemma near_size k x' x m : near k x' x m -> size x' <= grow k * m.
  Proof.
    intros [H1 H2]. assert (size x' <= apart x' x + size x); [|lra]. unfold size, apart.
    pose proof (Rabs_triang (fst x' - fst x) (fst x)) as A. pose proof (Rabs_triang (snd x' - snd x) (snd x)) as B.
    replace (fst x' - fst x + fst x) with (fst x') in A by ring. replace (snd x' - snd x + snd x) with (snd x') in B by ring. lra.
  Qed.
  Lemma apart_triangle x y z : apart x z <= apart x y + apart y z.
  Proof.
    unfold apart. pose proof (Rabs_triang (fst x - fst y) (fst y - fst z)) as A. pose proof (Rabs_triang (snd x - snd y) (snd y - snd z)) as B.
    replace (fst x - fst y + (fst y - fst z)) with (fst x - fst z) in A by ring. replace (snd x - snd y + (snd y - snd z)) with (snd x - snd z) in B by ring. lra.
  Qed.
  Lemma round_apart a b : apart (fl a, fl b) (a, b) <= u * size (a, b).
  Proof. destruct Hu as [_ H]. unfold apart, size. cbn. pose proof (H a). pose proof (H b). lra. Qed.

  Lemma near_add k x' x m y' y n : near k x' x m -> near k y' y n ->
    near (S k) (cadd (c := rounded fl) x' y') (cadd (c := RC) x y) (m + n).
  Proof.
    intros X Y. pose proof (near_size _ _ _ _ X) as SX. pose proof (near_size _ _ _ _ Y) as SY.
    destruct X as [X1 X2], Y as [Y1 Y2]. split.
    - cbn [cadd rounded RC fst snd]. eapply Rle_trans; [apply (apart_triangle _ (fst x' + fst y', snd x' + snd y'))|].
      assert (A : apart (fst x' + fst y', snd x' + snd y') (fst x + fst y, snd x + snd y) <= apart x' x + apart y' y).
      { unfold apart. cbn. pose proof (Rabs_triang (fst x' - fst x) (fst y' - fst y)) as A. pose proof (Rabs_triang (snd x' - snd x) (snd y' - snd y)) as B.
        replace (fst x' - fst x + (fst y' - fst y)) with (fst x' + fst y' - (fst x + fst y)) in A by ring.
        replace (snd x' - snd x + (snd y' - snd y)) with (snd x' + snd y' - (snd x + snd y)) in B by ring. lra. }
      assert (B : size (fst x' + fst y', snd x' + snd y') <= size x' + size y').
      { unfold size. cbn. pose proof (Rabs_triang (fst x') (fst y')). pose proof (Rabs_triang (snd x') (snd y')). lra. }
      pose proof (round_apart (fst x' + fst y') (snd x' + snd y')) as C. destruct Hu as [U _].
      replace (S k) with (k + 1)%nat by lia. rewrite grow_add, grow_1. nra.
    - cbn. unfold size in *. cbn. pose proof (Rabs_triang (fst x) (fst y)). pose proof (Rabs_triang (snd x) (snd y)). lra.
  Qed.
  Lemma near_conj k x' x m : near k x' x m -> near k (cconj (c := rounded fl) x') (cconj (c := RC) x) m.
  Proof.
    intros [X1 X2]. split; unfold apart, size in *; cbn.
    - replace (- snd x' - - snd x) with (- (snd x' - snd x)) by ring. rewrite Rabs_Ropp. exact X1.
    - rewrite Rabs_Ropp. exact X2.
  Qed.
  Lemma size_mul a b c d : size (a * c - b * d, a * d + b * c) <= size (a, b) * size (c, d).
  Proof.
    unfold size. cbn. pose proof (Rabs_triang (a * c) (- (b * d))) as A. pose proof (Rabs_triang (a * d) (b * c)) as B.
    rewrite Rabs_Ropp in A. rewrite !Rabs_mult in A, B. unfold Rminus. nra.
  Qed.
  Lemma near_mul j k x' x m y' y n : near j x' x m -> near k y' y n ->
    near (j + k + 2) (cmul (c := rounded fl) x' y') (cmul (c := RC) x y) (m * n).
  Proof.
    intros X Y. pose proof (near_size _ _ _ _ X) as SX. pose proof (near_size _ _ _ _ Y) as SY.
    pose proof (near_m _ _ _ _ X) as M. pose proof (near_m _ _ _ _ Y) as N. destruct X as [X1 X2], Y as [Y1 Y2].
    destruct x' as [a b], y' as [c d], x as [a0 b0], y as [c0' d0].
    assert (Z : size (a0 * c0' - b0 * d0, a0 * d0 + b0 * c0') <= m * n).
    { eapply Rle_trans; [apply size_mul|]. apply Rmult_le_compat; auto using size_pos. }
    split; [|exact Z]. cbn [cmul rounded RC fst snd].
    eapply Rle_trans; [apply (apart_triangle _ (a * c - b * d, a * d + b * c))|].
    (* exact product of the computed factors *)
    assert (P : apart (a * c - b * d, a * d + b * c) (a0 * c0' - b0 * d0, a0 * d0 + b0 * c0') <= (grow j * grow k - 1) * (m * n)).
    { assert (E1 : size (a - a0, b - b0) <= (grow j - 1) * m) by exact X1. assert (E2 : size (c - c0', d - d0) <= (grow k - 1) * n) by exact Y1.
      pose proof (size_mul (a - a0) (b - b0) c d) as Q1. pose proof (size_mul a0 b0 (c - c0') (d - d0)) as Q2.
      assert (T : apart (a * c - b * d, a * d + b * c) (a0 * c0' - b0 * d0, a0 * d0 + b0 * c0') <=
        size ((a - a0) * c - (b - b0) * d, (a - a0) * d + (b - b0) * c) + size (a0 * (c - c0') - b0 * (d - d0), a0 * (d - d0) + b0 * (c - c0'))).
      { unfold apart, size. cbn. pose proof (Rabs_triang ((a - a0) * c - (b - b0) * d) (a0 * (c - c0') - b0 * (d - d0))) as A.
        pose proof (Rabs_triang ((a - a0) * d + (b - b0) * c) (a0 * (d - d0) + b0 * (c - c0'))) as B.
        replace ((a - a0) * c - (b - b0) * d + (a0 * (c - c0') - b0 * (d - d0))) with (a * c - b * d - (a0 * c0' - b0 * d0)) in A by ring.
        replace ((a - a0) * d + (b - b0) * c + (a0 * (d - d0) + b0 * (c - c0'))) with (a * d + b * c - (a0 * d0 + b0 * c0')) in B by ring. lra. }
      assert (U1 : size (a - a0, b - b0) * size (c, d) <= ((grow j - 1) * m) * (grow k * n)) by (apply Rmult_le_compat; auto using size_pos).
      assert (U2 : size (a0, b0) * size (c - c0', d - d0) <= m * ((grow k - 1) * n)) by (apply Rmult_le_compat; auto using size_pos).
      nra. }
    (* rounding of the product *)
    assert (W : apart (fl (fl (a * c) - fl (b * d)), fl (fl (a * d) + fl (b * c))) (a * c - b * d, a * d + b * c) <= (grow 2 - 1) * (size (a, b) * size (c, d))).
    { destruct Hu as [U H].
      assert (V : forall p q s, s = 1 \/ s = -1 -> Rabs (fl (fl p + s * fl q) - (p + s * q)) <= (grow 2 - 1) * (Rabs p + Rabs q)).
      { intros p q s S. pose proof (H p) as Hp. pose proof (H q) as Hq. pose proof (H (fl p + s * fl q)) as Hs.
        assert (As : Rabs s = 1) by (destruct S as [-> | ->]; unfold Rabs; destruct Rcase_abs; lra).
        pose proof (Rabs_triang (fl p + s * fl q - (p + s * q)) (p + s * q)) as T1. replace (fl p + s * fl q - (p + s * q) + (p + s * q)) with (fl p + s * fl q) in T1 by ring.
        pose proof (Rabs_triang (fl (fl p + s * fl q) - (fl p + s * fl q)) (fl p + s * fl q - (p + s * q))) as T2.
        replace (fl (fl p + s * fl q) - (fl p + s * fl q) + (fl p + s * fl q - (p + s * q))) with (fl (fl p + s * fl q) - (p + s * q)) in T2 by ring.
        pose proof (Rabs_triang (fl p - p) (s * (fl q - q))) as T3. replace (fl p - p + s * (fl q - q)) with (fl p + s * fl q - (p + s * q)) in T3 by ring.
        rewrite Rabs_mult, As, Rmult_1_l in T3.
        pose proof (Rabs_triang p (s * q)) as T4. rewrite Rabs_mult, As, Rmult_1_l in T4.
        assert (G2 : grow 2 = (1 + u) * (1 + u)) by (unfold grow; simpl; ring). rewrite G2.
        pose proof (Rabs_pos p). pose proof (Rabs_pos q).
        assert (B1 : Rabs (fl p + s * fl q - (p + s * q)) <= u * (Rabs p + Rabs q)) by lra.
        assert (B2 : Rabs (fl p + s * fl q) <= (1 + u) * (Rabs p + Rabs q)) by lra.
        assert (B3 : u * Rabs (fl p + s * fl q) <= u * ((1 + u) * (Rabs p + Rabs q))) by (apply Rmult_le_compat_l; assumption). lra. }
      pose proof (V (a * c) (b * d) (-1) (or_intror eq_refl)) as V1. pose proof (V (a * d) (b * c) 1 (or_introl eq_refl)) as V2.
      replace (fl (a * c) + -1 * fl (b * d)) with (fl (a * c) - fl (b * d)) in V1 by ring. replace (a * c + -1 * (b * d)) with (a * c - b * d) in V1 by ring.
      rewrite !Rmult_1_l in V2. unfold apart, size. cbn [fst snd]. rewrite !Rabs_mult in V1, V2. nra. }
    assert (G : grow (j + k + 2) = grow j * grow k * grow 2) by now rewrite !grow_add. rewrite G.
    assert (S2 : size (a, b) * size (c, d) <= (grow j * m) * (grow k * n)) by (apply Rmult_le_compat; auto using size_pos).
    pose proof (grow_ge1 2). assert (S3 : (grow 2 - 1) * (size (a, b) * size (c, d)) <= (grow 2 - 1) * ((grow j * m) * (grow k * n))) by (apply Rmult_le_compat_l; lra).
    lra.
  Qed.

  Lemma near_csum k n (f' f : nat -> R * R) (m : nat -> R) : (forall i, (i < n)%nat -> near k (f' i) (f i) (m i)) ->
    near (k + n) (csum (K := rounded fl) n f') (csum (K := RC) n f) (csum (K := RR) n m).
  Proof.
    induction n as [|n IH]; intros H; [exact (near_0 _)|]. replace (k + S n)%nat with (S (k + n)) by lia. cbn [csum].
    apply near_add; [apply IH; auto with arith|]. apply (near_mono k); [lia|]. apply H. lia.
  Qed.
End Near.
