From Coq Require Import Reals Lra.
From Verif Require Import Prelude PreludeFacts CRing CplxR LoopFacts KernModel KernSpec KernProofs KernProofs2 GridModel GridSpec.
Close Scope R_scope.
Open Scope nat_scope.

(* rounding *)
Lemma Int_part_bounds x : (IZR (Int_part x) <= x < IZR (Int_part x) + 1)%R.
Proof. destruct (base_Int_part x). lra. Qed.
Lemma np_round_nearest x : nearest x (np_round x).
Proof.
  unfold np_round, nearest. pose proof (Int_part_bounds x). cbv zeta. destruct (Rlt_dec (x - IZR (Int_part x)) (1 / 2)) as [H1|H1].
  - left. rewrite Rabs_pos_eq; lra.
  - destruct (Rlt_dec (1 / 2) (x - IZR (Int_part x))) as [H2|H2].
    + left. rewrite plus_IZR, Rabs_left; lra.
    + destruct (Z.even (Int_part x)) eqn:E.
      * right. split; [rewrite Rabs_pos_eq; lra|exact E].
      * right. split; [rewrite plus_IZR, Rabs_left; lra|]. rewrite Z.even_add, E. reflexivity.
Qed.
Lemma IZR_close a b : (IZR a - IZR b < 1)%R -> (-1 < IZR a - IZR b)%R -> a = b.
Proof. rewrite <- minus_IZR. intros H1 H2. apply lt_IZR in H1. apply (lt_IZR (-1)) in H2. lia. Qed.
Lemma nearest_bound x z : nearest x z -> (- (1 / 2) <= x - IZR z <= 1 / 2)%R.
Proof. intros H. assert (L : (Rabs (x - IZR z) <= 1 / 2)%R) by (destruct H as [H|(H & _)]; lra). revert L. unfold Rabs. destruct (Rcase_abs (x - IZR z)); lra. Qed.
Lemma nearest_unique x a b : nearest x a -> nearest x b -> a = b.
Proof.
  intros Ha Hb. pose proof (nearest_bound _ _ Ha). pose proof (nearest_bound _ _ Hb).
  destruct (Z.eq_dec a b) as [|N]; auto. exfalso.
  assert (S : b = (a + 1)%Z \/ a = (b + 1)%Z).
  { assert (L1 : (IZR (b - a) <= 1)%R) by (rewrite minus_IZR; lra). assert (L2 : (-1 <= IZR (b - a))%R) by (rewrite minus_IZR; lra). apply le_IZR in L1. apply (le_IZR (-1)) in L2. lia. }
  assert (D : (Rabs (x - IZR a) = 1 / 2 /\ Rabs (x - IZR b) = 1 / 2)%R).
  { destruct S as [-> | ->]; rewrite plus_IZR in *.
    - assert (x - IZR a = 1 / 2)%R by lra. split; [rewrite Rabs_pos_eq; lra|rewrite Rabs_left; lra].
    - assert (x - IZR b = 1 / 2)%R by lra. split; [rewrite Rabs_left; lra|rewrite Rabs_pos_eq; lra]. }
  destruct D as (D1 & D2). destruct Ha as [Ha|(_ & Ea)]; [lra|]. destruct Hb as [Hb|(_ & Eb)]; [lra|].
  destruct S as [-> | ->]; rewrite Z.even_add in *; [rewrite Ea in Eb|rewrite Eb in Ea]; discriminate.
Qed.
Lemma py_int_truncated x : truncated x (py_int x).
Proof.
  unfold py_int, truncated. pose proof (Int_part_bounds x). pose proof (Int_part_bounds (- x)). destruct (Rlt_dec x 0) as [H1|H1].
  - rewrite opp_IZR. split; intros; lra.
  - split; intros; [lra|]. assert (x = 0)%R by lra. subst x. assert (Int_part 0 = 0%Z) as ->; [|lra].
    apply IZR_close; lra.
Qed.
Lemma truncated_unique x a b : truncated x a -> truncated x b -> a = b.
Proof. intros (A1 & A2) (B1 & B2). apply IZR_close; destruct (Rle_dec 0 x) as [H|H]; try (specialize (A1 H); specialize (B1 H); lra); assert (x <= 0)%R by lra; intuition lra. Qed.
Lemma truncated_half os x f : (0 <= x <= INR os / 2 \/ - (INR os / 2) <= x <= 0)%R -> truncated x f -> (2 * Z.abs f <= Z.of_nat os)%Z.
Proof.
  intros H (T1 & T2). destruct H as [H|H].
  - specialize (T1 (proj1 H)). assert (L : (IZR (2 * f) <= IZR (Z.of_nat os))%R) by (rewrite mult_IZR, <- INR_IZR_INZ; lra). apply le_IZR in L.
    assert (G : (-1 < IZR f)%R) by lra. apply (lt_IZR (-1)) in G. lia.
  - specialize (T2 (proj2 H)). assert (L : (IZR (- Z.of_nat os) <= IZR (2 * f))%R) by (rewrite mult_IZR, opp_IZR, <- INR_IZR_INZ; lra). apply le_IZR in L.
    assert (G : (IZR f < 1)%R) by lra. apply (lt_IZR f 1) in G. lia.
Qed.
Lemma placed_bound os x d f : placed os x d f -> (2 * Z.abs f <= Z.of_nat os)%Z.
Proof.
  intros (N & T). apply (truncated_half os ((IZR d - x) * INR os)%R); [|exact T]. pose proof (nearest_bound _ _ N). pose proof (pos_INR os).
  destruct (Rle_dec 0 (IZR d - x)); [left|right]; nra.
Qed.
Lemma placed_unique os x d f d' f' : placed os x d f -> placed os x d' f' -> d = d' /\ f = f'.
Proof. intros (N & T) (N' & T'). assert (d = d') by (eapply nearest_unique; eauto). subst d'. split; auto. eapply truncated_unique; eauto. Qed.
Lemma model_placed npix s os : placed os (position npix s) (discrete npix s) (fraction npix s os).
Proof.
  split; [apply np_round_nearest|]. unfold fraction, position.
  replace ((IZR (discrete npix s) - (s + INR (npix / 2))) * INR os)%R with ((- (s + INR (npix / 2)) + IZR (discrete npix s)) * INR os)%R by ring. apply py_int_truncated.
Qed.

(* the samples read *)
Lemma getitem_in {A} n (a : arr A) i : (0 <= i < Z.of_nat n)%Z -> getitem n a i = Ok (a (Z.to_nat i)).
Proof. intros H. unfold getitem, index_of. destruct (Z.leb_spec 0 i), (Z.ltb_spec i (Z.of_nat n)); try lia. reflexivity. Qed.
Lemma getitem_neg {A} n (a : arr A) i : (- Z.of_nat n <= i < 0)%Z -> getitem n a i = Ok (a (Z.to_nat (i + Z.of_nat n))).
Proof.
  intros H. unfold getitem, index_of. destruct (Z.leb_spec 0 i); [lia|]. cbn [andb]. destruct (Z.leb_spec (- Z.of_nat n) i), (Z.ltb_spec i 0); try lia. reflexivity.
Qed.
Lemma read_unpacked K W os f t : 0 < os -> (2 * Z.abs f <= Z.of_nat os)%Z -> t < W ->
  getitem (os * (W + 2)) K (unpacked_index (kernel_of K W os) f t) = Ok (K (Z.to_nat (Z.of_nat os * (Z.of_nat t + 1) + f))).
Proof. intros Ho Hf Ht. unfold unpacked_index. cbn [oversampling kernel_of]. rewrite getitem_in by nia. do 3 f_equal. lia. Qed.
Lemma read_packed {junk} K pk W os f t : pack_kernel junk K (os * (W + 2)) W os = Ok pk -> 0 < os -> (2 * Z.abs f <= Z.of_nat os)%Z -> t < W ->
  getitem (os * (W + 2)) pk (packed_index (kernel_of pk W os) f t) = Ok (K (Z.to_nat (Z.of_nat os * (Z.of_nat t + 1) + f))).
Proof.
  intros Hp Ho Hf Ht. destruct (pack_spec junk K W os) as (pk' & Ep & Hs). rewrite Hp in Ep. injection Ep as <-. assert (Hb : (- Z.of_nat os <= 2 * f <= Z.of_nat os)%Z) by lia. clear Hf.
  unfold packed_index. cbn [width kernel_of]. destruct (Z.ltb_spec f 0).
  - assert (Hf1 : (f * (Z.of_nat W + 2) <= - (Z.of_nat W + 2))%Z) by nia. assert (Hf2 : (- (Z.of_nat os * (Z.of_nat W + 2)) <= f * (Z.of_nat W + 2))%Z) by nia.
    assert (Hn : Z.of_nat (os * (W + 2)) = (Z.of_nat os * (Z.of_nat W + 2))%Z) by lia.
    rewrite getitem_neg by (rewrite Hn; lia). f_equal. transitivity (pk (Z.to_nat (Z.of_nat os + f) * (W + 2) + t)).
    + f_equal. apply Nat2Z.inj. rewrite Hn. rewrite Z2Nat.id by lia. rewrite Nat2Z.inj_add, Nat2Z.inj_mul, Z2Nat.id by lia. rewrite Nat2Z.inj_add. change (Z.of_nat 2) with 2%Z. ring.
    + rewrite Hs by lia. f_equal. apply Nat2Z.inj. rewrite Nat2Z.inj_add, Nat2Z.inj_mul, !Z2Nat.id by nia. ring.
  - assert (Hf1 : (0 <= f * (Z.of_nat W + 2))%Z) by (apply Z.mul_nonneg_nonneg; lia). assert (Hf2 : (f * (Z.of_nat W + 2) <= (Z.of_nat os - 1) * (Z.of_nat W + 2))%Z) by (apply Z.mul_le_mono_nonneg_r; lia).
    assert (Hn : Z.of_nat (os * (W + 2)) = (Z.of_nat os * (Z.of_nat W + 2))%Z) by lia.
    rewrite getitem_in by (rewrite Hn; lia). f_equal. transitivity (pk (Z.to_nat f * (W + 2) + (t + 1))).
    + f_equal. apply Nat2Z.inj. rewrite Z2Nat.id by lia. rewrite !Nat2Z.inj_add, Nat2Z.inj_mul, Z2Nat.id by lia. rewrite Nat2Z.inj_add. change (Z.of_nat 2) with 2%Z. change (Z.of_nat 1) with 1%Z. ring.
    + rewrite Hs by lia. f_equal. apply Nat2Z.inj. rewrite Nat2Z.inj_add, Nat2Z.inj_mul, !Z2Nat.id by nia. rewrite Nat2Z.inj_add. change (Z.of_nat 1) with 1%Z. ring.
Qed.
Lemma forM_ext {T} n (b b' : nat -> T -> res T) s : (forall i s, i < n -> b i s = b' i s) -> forM n b s = forM n b' s.
Proof. induction n as [|n IH]; intros H; [reflexivity|]. cbn [forM]. rewrite IH by (intros; apply H; lia). destruct (forM n b' s); cbn [bind]; [apply H; lia|reflexivity]. Qed.
Lemma packed_scatter junk K pk W os su sv npix grid vis f : 0 < os -> pack_kernel junk K (os * (W + 2)) W os = Ok pk ->
  convolve_scatter packed_index su sv npix grid vis f (kernel_of pk W os) = convolve_scatter unpacked_index su sv npix grid vis f (kernel_of K W os).
Proof.
  intros Ho Hp. unfold convolve_scatter. cbn [width oversampling nsamples samples kernel_of].
  apply forM_ext. intros tv gc Htv. rewrite (read_packed K pk W os _ tv Hp Ho (placed_bound _ _ _ _ (model_placed npix sv os)) Htv).
  rewrite (read_unpacked K W os _ tv Ho (placed_bound _ _ _ _ (model_placed npix sv os)) Htv). cbn [bind].
  apply forM_ext. intros tu gc' Htu. rewrite (read_packed K pk W os _ tu Hp Ho (placed_bound _ _ _ _ (model_placed npix su os)) Htu).
  rewrite (read_unpacked K W os _ tu Ho (placed_bound _ _ _ _ (model_placed npix su os)) Htu). reflexivity.
Qed.
Lemma packed_gather junk K pk W os su sv npix grid vis f : 0 < os -> pack_kernel junk K (os * (W + 2)) W os = Ok pk ->
  convolve_gather packed_index su sv npix grid vis f (kernel_of pk W os) = convolve_gather unpacked_index su sv npix grid vis f (kernel_of K W os).
Proof.
  intros Ho Hp. unfold convolve_gather. cbn [width oversampling nsamples samples kernel_of]. f_equal.
  apply forM_ext. intros tv gc Htv. rewrite (read_packed K pk W os _ tv Hp Ho (placed_bound _ _ _ _ (model_placed npix sv os)) Htv).
  rewrite (read_unpacked K W os _ tv Ho (placed_bound _ _ _ _ (model_placed npix sv os)) Htv). cbn [bind].
  apply forM_ext. intros tu gc' Htu. rewrite (read_packed K pk W os _ tu Hp Ho (placed_bound _ _ _ _ (model_placed npix su os)) Htu).
  rewrite (read_unpacked K W os _ tu Ho (placed_bound _ _ _ _ (model_placed npix su os)) Htu). reflexivity.
Qed.
(* where the sample read for a cell lies *)
Lemma tap_position W os x d f t : W mod 2 = 1 -> 0 < os -> placed os x d f -> t < W ->
  (Rabs (sample_position W os (Z.to_nat (Z.of_nat os * (Z.of_nat t + 1) + f)) - (IZR (d + Z.of_nat t - Z.of_nat (W / 2)) - x)) < / INR os)%R.
Proof.
  intros HW Ho P Ht. pose proof (placed_bound _ _ _ _ P) as B. destruct P as (N & T).
  assert (Ho' : (0 < INR os)%R) by (apply lt_0_INR; lia).
  assert (E : INR ((W + 1) / 2) = (INR (W / 2) + 1)%R).
  { rewrite <- S_INR. f_equal. pose proof (Nat.div_mod W 2 ltac:(lia)). symmetry. apply Nat.div_unique_exact; lia. }
  unfold sample_position. rewrite INR_IZR_INZ, Z2Nat.id by nia. rewrite plus_IZR, mult_IZR, !plus_IZR, minus_IZR, plus_IZR, <- !INR_IZR_INZ, E.
  replace ((INR os * (INR t + 1) + IZR f) / INR os - (INR (W / 2) + 1) - (IZR d + INR t - INR (W / 2) - x))%R with ((IZR f - (IZR d - x) * INR os) * / INR os)%R by (field; lra).
  rewrite Rabs_mult, (Rabs_pos_eq (/ INR os)) by (left; apply Rinv_0_lt_compat; exact Ho').
  rewrite <- (Rmult_1_l (/ INR os)) at 2. apply Rmult_lt_compat_r; [apply Rinv_0_lt_compat; exact Ho'|].
  destruct T as (T1 & T2). apply Rabs_def1; destruct (Rle_dec 0 ((IZR d - x) * INR os)) as [H|H]; try (specialize (T1 H); lra); assert ((IZR d - x) * INR os <= 0)%R by lra; intuition lra.
Qed.
