(* Sums of roots of unity and the convolution theorem for finite sums.  Nothing here models a function of /repo. *)
From Coq Require Import Reals Lra.
From Verif Require Import Prelude CRing CplxR.
Open Scope R_scope.

(* exp(2 pi i z / n) *)
Definition root (n : nat) (z : Z) : RC := cis (2 * PI * IZR z / INR n).
Lemma root_add n x y : (0 < n)%nat -> root n (x + y) = cmul (root n x) (root n y).
Proof. intros N. unfold root. rewrite <- cis_add. f_equal. rewrite plus_IZR. field. apply not_0_INR. lia. Qed.
Lemma root_0 n : root n 0 = c1.
Proof. unfold root. rewrite <- cis_0. f_equal. unfold Rdiv. ring. Qed.
Lemma root_opp n x : root n (- x) = cconj (root n x).
Proof. unfold root. rewrite <- cis_opp. f_equal. rewrite opp_IZR. unfold Rdiv. ring. Qed.
Lemma cis_turns_nat k x : cis (x + 2 * INR k * PI) = cis x.
Proof. unfold cis. now rewrite cos_period, sin_period. Qed.
Lemma root_turns n z k : (0 < n)%nat -> root n (z + Z.of_nat n * k) = root n z.
Proof.
  intros N. assert (P : forall z j, root n (z + Z.of_nat n * Z.of_nat j) = root n z).
  { intros y j. unfold root. rewrite <- (cis_turns_nat j (2 * PI * IZR y / INR n)). f_equal. rewrite plus_IZR, mult_IZR, <- !INR_IZR_INZ. field. apply not_0_INR. lia. }
  destruct (Z_le_gt_dec 0 k) as [H|H].
  - rewrite <- (Z2Nat.id k H). apply P.
  - symmetry. replace z with ((z + Z.of_nat n * k) + Z.of_nat n * Z.of_nat (Z.to_nat (- k)))%Z at 1; [apply P|]. rewrite Z2Nat.id by lia. ring.
Qed.
Lemma root_mod n z : (0 < n)%nat -> root n (z mod Z.of_nat n) = root n z.
Proof. intros N. rewrite (Z_div_mod_eq_full z (Z.of_nat n)) at 2. rewrite Z.add_comm. symmetry. now apply root_turns. Qed.
Lemma cis_not_1 x : 0 < x < 2 * PI -> cis x <> c1.
Proof.
  intros X E. injection E as C _. assert (S0 : 0 < sin (x / 2)) by (apply sin_gt_0; lra).
  replace x with (2 * (x / 2)) in C by lra. rewrite cos_2a_sin in C. nra.
Qed.
Lemma root_not_1 n z : (0 < n)%nat -> (z mod Z.of_nat n <> 0)%Z -> root n z <> c1.
Proof.
  intros N H. rewrite <- root_mod by exact N. pose proof (Z.mod_pos_bound z (Z.of_nat n) ltac:(lia)) as B. unfold root. apply cis_not_1.
  assert (I : 0 < INR n) by (apply lt_0_INR; lia). assert (A : 1 <= IZR (z mod Z.of_nat n)) by (apply IZR_le; lia).
  assert (A2 : IZR (z mod Z.of_nat n) < INR n) by (rewrite INR_IZR_INZ; apply IZR_lt; lia). pose proof PI_RGT_0. split.
  - apply Rmult_lt_0_compat; [nra|]. now apply Rinv_0_lt_compat.
  - apply (Rmult_lt_reg_r (INR n)); [exact I|]. unfold Rdiv. rewrite Rmult_assoc, Rinv_l by lra. nra.
Qed.

Add Ring RCring : (law_ring RC RC_laws).
Lemma csum_shift n (f : nat -> RC) : cadd (csum n (fun k => f (S k))) (f O) = cadd (csum n f) (f n).
Proof. induction n as [|n IH]; cbn [csum]; [ring|]. transitivity (cadd (cadd (csum n (fun k => f (S k))) (f O)) (f (S n))); [ring|]. rewrite IH. ring. Qed.
Lemma rc_cancel (s e : RC) : cmul s e = s -> e <> c1 -> s = c0.
Proof.
  intros H N. assert (X : cmul s (csub e c1) = c0) by (transitivity (csub (cmul s e) s); [ring|rewrite H; ring]).
  destruct s as [a b], e as [c d]. cbn in X. injection X as X1 X2.
  assert (D : (c - 1) * (c - 1) + d * d <> 0).
  { intros Q. apply N. assert (c - 1 = 0 /\ d = 0) as [A ->].
    { assert (0 <= (c - 1) * (c - 1)) by apply Rle_0_sqr. assert (0 <= d * d) by apply Rle_0_sqr. split; apply Rsqr_0_uniq; unfold Rsqr; lra. }
    apply injective_projections; cbn; lra. }
  assert (A : a * ((c - 1) * (c - 1) + d * d) = 0).
  { transitivity ((c - 1) * (a * (c - 1) - b * (d - 0)) + d * (a * (d - 0) + b * (c - 1))); [ring|]. rewrite X1, X2. ring. }
  assert (B : b * ((c - 1) * (c - 1) + d * d) = 0).
  { transitivity ((c - 1) * (a * (d - 0) + b * (c - 1)) - d * (a * (c - 1) - b * (d - 0))); [ring|]. rewrite X1, X2. ring. }
  cbn. f_equal; [apply Rmult_integral in A; tauto|apply Rmult_integral in B; tauto].
Qed.
Lemma root_sum n z : (0 < n)%nat -> csum n (fun k => root n (Z.of_nat k * z)) = if Z.eqb (z mod Z.of_nat n) 0 then ofR (INR n) else c0.
Proof.
  intros N. destruct (Z.eqb_spec (z mod Z.of_nat n) 0) as [E|E].
  - rewrite (csum_ext n _ (fun _ => c1)).
    + clear. induction n as [|n IH]; [reflexivity|]. cbn [csum]. rewrite IH, S_INR. unfold ofR. cbn. f_equal. ring.
    + intros k K. rewrite (Z_div_mod_eq_full z (Z.of_nat n)), E. replace (Z.of_nat k * (Z.of_nat n * (z / Z.of_nat n) + 0))%Z with (0 + Z.of_nat n * (Z.of_nat k * (z / Z.of_nat n)))%Z by ring.
      rewrite root_turns by exact N. apply root_0.
  - apply (rc_cancel _ (root n z)); [|now apply root_not_1].
    rewrite <- (csum_mul_r RC_laws), (csum_ext n _ (fun k => root n (Z.of_nat (S k) * z))).
    + pose proof (csum_shift n (fun k => root n (Z.of_nat k * z))) as H. cbn beta in H.
      replace (root n (Z.of_nat n * z)) with (root n (Z.of_nat 0 * z)) in H by (cbn [Z.of_nat Z.mul]; rewrite <- (root_turns n 0 z N); f_equal; ring).
      set (a := csum n (fun k => root n (Z.of_nat (S k) * z))) in *. set (b := csum n _) in *. set (c := root n _) in *.
      transitivity (csub (cadd a c) c); [ring|]. rewrite H. ring.
    + intros k K. rewrite <- root_add by exact N. f_equal. lia.
Qed.

(* x * y at i: the sum over a + b congruent to i *)
Definition meets (n : nat) (a b i : nat) : bool := Nat.eqb ((a + b) mod n) (i mod n).
Lemma meets_root n a b i : (0 < n)%nat -> Z.eqb ((Z.of_nat i - Z.of_nat a - Z.of_nat b) mod Z.of_nat n) 0 = meets n a b i.
Proof.
  intros N. unfold meets. apply eq_true_iff_eq. rewrite Z.eqb_eq, Nat.eqb_eq. split; intros H.
  - apply Nat2Z.inj. rewrite !Nat2Z.inj_mod, Nat2Z.inj_add. rewrite (Z_div_mod_eq_full (Z.of_nat i - Z.of_nat a - Z.of_nat b) (Z.of_nat n)) in H.
    set (q := ((Z.of_nat i - Z.of_nat a - Z.of_nat b) / Z.of_nat n)%Z) in *.
    assert (E : (Z.of_nat i = (Z.of_nat a + Z.of_nat b) + q * Z.of_nat n)%Z).
    { pose proof (Z_div_mod_eq_full (Z.of_nat i - Z.of_nat a - Z.of_nat b) (Z.of_nat n)) as D. fold q in D.
      assert (((Z.of_nat i - Z.of_nat a - Z.of_nat b) mod Z.of_nat n = 0)%Z); [|lia].
      rewrite <- H. rewrite <- D. reflexivity. }
    rewrite E. rewrite Z.mod_add by lia. reflexivity.
  - replace (Z.of_nat i - Z.of_nat a - Z.of_nat b)%Z with (Z.of_nat i - Z.of_nat (a + b))%Z by lia.
    rewrite Zminus_mod, <- !Nat2Z.inj_mod, H, Z.sub_diag. apply Z.mod_0_l. lia.
Qed.
Lemma conv1 n (x y : nat -> RC) i : (0 < n)%nat ->
  csum n (fun k => cmul (cmul (csum n (fun a => cmul (x a) (root n (- (Z.of_nat k * Z.of_nat a))))) (csum n (fun b => cmul (y b) (root n (- (Z.of_nat k * Z.of_nat b))))))
                        (root n (Z.of_nat k * Z.of_nat i))) =
  cmul (ofR (INR n)) (csum n (fun a => csum n (fun b => if meets n a b i then cmul (x a) (y b) else c0))).
Proof.
  intros N.
  transitivity (csum n (fun k => csum n (fun a => csum n (fun b => cmul (cmul (x a) (y b)) (root n (Z.of_nat k * (Z.of_nat i - Z.of_nat a - Z.of_nat b))))))).
  - apply csum_ext. intros k K. rewrite <- !(csum_mul_r RC_laws). apply csum_ext. intros a A. rewrite <- (csum_mul_l RC_laws), <- (csum_mul_r RC_laws). apply csum_ext. intros b B.
    replace (Z.of_nat k * (Z.of_nat i - Z.of_nat a - Z.of_nat b))%Z with (- (Z.of_nat k * Z.of_nat a) + - (Z.of_nat k * Z.of_nat b) + Z.of_nat k * Z.of_nat i)%Z by ring.
    rewrite !root_add by exact N. ring.
  - rewrite (csum_swap RC_laws), <- (csum_mul_l RC_laws). apply csum_ext. intros a A. rewrite (csum_swap RC_laws), <- (csum_mul_l RC_laws). apply csum_ext. intros b B.
    rewrite (csum_mul_l RC_laws), root_sum, meets_root by exact N. destruct (meets n a b i); ring.
Qed.
