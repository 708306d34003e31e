From Coq Require Import Reals Lra.
From Verif Require Import Prelude CRing CplxR FftFacts RestoreModel RestoreSpec.
Open Scope R_scope.
Add Ring RCring2 : (law_ring RC RC_laws).

(* ---- the FFT part ---- *)
Lemma rsum_rot n s (f : nat -> R) : (s <= n)%nat -> rsum n (fun a => f (Nat.modulo (a + s) n)) = rsum n f.
Proof.
  intros H. assert (A : rsum n (fun a => f (Nat.modulo (a + s) n)) = rsum (n - s) (fun a => f (s + a)%nat) + rsum s f).
  { replace n with ((n - s) + s)%nat at 1 by lia. rewrite (csum_split RR_laws). cbn [cadd RR]. f_equal; apply csum_ext; intros i I; f_equal.
    - rewrite Nat.mod_small by lia. lia.
    - replace (n - s + i + s)%nat with (i + 1 * n)%nat by lia. rewrite Nat.mod_add by lia. apply Nat.mod_small. lia. }
  rewrite A. replace (rsum n f) with (rsum (s + (n - s)) f) by (f_equal; lia). rewrite (csum_split RR_laws). cbn [cadd RR]. apply Rplus_comm.
Qed.
Lemma conj_ofR x : cconj (ofR x) = ofR x.
Proof. apply injective_projections; cbn; ring. Qed.
Lemma r2c_mirror n1 n2 x k1 k2 : (k1 < n1)%nat -> (k2 < n2)%nat ->
  cconj (r2c n1 n2 x (Nat.modulo (n1 - k1) n1) (n2 - k2)%nat) = r2c n1 n2 x k1 k2.
Proof.
  intros K1 K2. unfold r2c. rewrite (csum_conj RC_laws). apply csum_ext. intros i1 I1. rewrite (csum_conj RC_laws). apply csum_ext. intros i2 I2.
  rewrite !(law_conj_mul RC RC_laws), conj_ofR, <- !root_opp, !Z.opp_involutive. f_equal; [f_equal|].
  - rewrite Nat2Z.inj_sub by lia. replace ((Z.of_nat n2 - Z.of_nat k2) * Z.of_nat i2)%Z with (- (Z.of_nat k2 * Z.of_nat i2) + Z.of_nat n2 * Z.of_nat i2)%Z by ring. apply root_turns. lia.
  - rewrite <- (root_mod n1 (Z.of_nat (Nat.modulo (n1 - k1) n1) * Z.of_nat i1)) by lia. rewrite Nat2Z.inj_mod, Z.mul_mod_idemp_l, root_mod by lia.
    rewrite Nat2Z.inj_sub by lia. replace ((Z.of_nat n1 - Z.of_nat k1) * Z.of_nat i1)%Z with (- (Z.of_nat k1 * Z.of_nat i1) + Z.of_nat n1 * Z.of_nat i1)%Z by ring. apply root_turns. lia.
Qed.
Lemma r2c_rows n1 n2 x k1 k2 : r2c n1 n2 x k1 k2 =
  csum n2 (fun i2 => cmul (csum n1 (fun i1 => cmul (ofR (x i1 i2)) (root n1 (- (Z.of_nat k1 * Z.of_nat i1))))) (root n2 (- (Z.of_nat k2 * Z.of_nat i2)))).
Proof.
  unfold r2c. rewrite (csum_swap RC_laws). apply csum_ext. intros i2 I2. rewrite <- (csum_mul_r RC_laws). apply csum_ext. intros i1 I1. ring.
Qed.
Lemma re_if (b : bool) (x : R) : re (if b then ofR x else c0) = if b then x else 0.
Proof. now destruct b. Qed.
Lemma ofR_mul x y : cmul (ofR x) (ofR y) = ofR (x * y).
Proof. apply injective_projections; cbn; ring. Qed.
Lemma ofR_csum n (f : nat -> R) : csum n (fun i => ofR (f i)) = ofR (rsum n f).
Proof. induction n as [|n IH]; [reflexivity|]. cbn [csum]. rewrite IH. apply injective_projections; cbn; ring. Qed.
Lemma conv2 n1 n2 x y i1 i2 : (0 < n1)%nat -> (0 < n2)%nat ->
  c2r n1 n2 (fun k1 k2 => cmul (r2c n1 n2 x k1 k2) (r2c n1 n2 y k1 k2)) i1 i2 =
  rsum n2 (fun a2 => rsum n2 (fun b2 => if meets n2 a2 b2 i2 then rsum n1 (fun a1 => rsum n1 (fun b1 => if meets n1 a1 b1 i1 then x a1 a2 * y b1 b2 else 0)) else 0)).
Proof.
  intros N1 N2. unfold c2r.
  set (T := rsum n2 _).
  enough (E : csum n1 (fun k1 => csum n2 (fun k2 => cmul (cmul (mirrored n1 n2 (fun k1 k2 => cmul (r2c n1 n2 x k1 k2) (r2c n1 n2 y k1 k2)) k1 k2) (root n2 (Z.of_nat k2 * Z.of_nat i2))) (root n1 (Z.of_nat k1 * Z.of_nat i1))))
     = cmul (ofR (INR n1 * INR n2)) (ofR T)).
  { rewrite E, ofR_mul. cbn [re ofR fst]. field. split; apply not_0_INR; lia. }
  set (xh := fun k1 i2 => csum n1 (fun i1 => cmul (ofR (x i1 i2)) (root n1 (- (Z.of_nat k1 * Z.of_nat i1))))).
  set (yh := fun k1 i2 => csum n1 (fun i1 => cmul (ofR (y i1 i2)) (root n1 (- (Z.of_nat k1 * Z.of_nat i1))))).
  transitivity (csum n1 (fun k1 => cmul (cmul (ofR (INR n2)) (csum n2 (fun a => csum n2 (fun b => if meets n2 a b i2 then cmul (xh k1 a) (yh k1 b) else c0)))) (root n1 (Z.of_nat k1 * Z.of_nat i1)))).
  { apply csum_ext. intros k1 K1. rewrite (csum_mul_r RC_laws). f_equal. rewrite <- (conv1 n2 (xh k1) (yh k1) i2 N2). apply csum_ext. intros k2 K2. f_equal.
    unfold mirrored. destruct (k2 <=? Nat.div n2 2)%nat.
    - rewrite !r2c_rows. reflexivity.
    - rewrite (law_conj_mul RC RC_laws), !r2c_mirror by assumption. rewrite !r2c_rows. reflexivity. }
  transitivity (cmul (ofR (INR n2)) (csum n2 (fun a => csum n2 (fun b => if meets n2 a b i2 then csum n1 (fun k1 => cmul (cmul (xh k1 a) (yh k1 b)) (root n1 (Z.of_nat k1 * Z.of_nat i1))) else c0)))).
  { rewrite <- (csum_mul_l RC_laws). 
    transitivity (csum n1 (fun k1 => csum n2 (fun a => csum n2 (fun b => cmul (ofR (INR n2)) (if meets n2 a b i2 then cmul (cmul (xh k1 a) (yh k1 b)) (root n1 (Z.of_nat k1 * Z.of_nat i1)) else c0))))).
    { apply csum_ext. intros k1 K1. rewrite <- (csum_mul_l RC_laws), <- (csum_mul_r RC_laws). apply csum_ext. intros a A. rewrite <- (csum_mul_l RC_laws), <- (csum_mul_r RC_laws). apply csum_ext. intros b B.
      destruct (meets n2 a b i2); ring. }
    rewrite (csum_swap RC_laws). apply csum_ext. intros a A. rewrite (csum_swap RC_laws), <- (csum_mul_l RC_laws). apply csum_ext. intros b B.
    destruct (meets n2 a b i2); [apply (csum_mul_l RC_laws)|]. rewrite (csum_mul_l RC_laws), (csum_0 RC_laws). reflexivity. }
  replace (ofR (INR n1 * INR n2)) with (cmul (ofR (INR n2)) (ofR (INR n1))) by (rewrite ofR_mul; f_equal; apply Rmult_comm).
  transitivity (cmul (ofR (INR n2)) (cmul (ofR (INR n1)) (ofR T))); [|ring]. f_equal.
  unfold T. rewrite <- ofR_csum, <- (csum_mul_l RC_laws). apply csum_ext. intros a A. rewrite <- ofR_csum, <- (csum_mul_l RC_laws). apply csum_ext. intros b B.
  destruct (meets n2 a b i2); [|change (ofR 0) with (c0 : RC); ring]. unfold xh, yh. rewrite (conv1 n1 (fun i1 => ofR (x i1 a)) (fun i1 => ofR (y i1 b)) i1 N1).
  f_equal. rewrite <- ofR_csum. apply csum_ext. intros a1 A1. rewrite <- ofR_csum. apply csum_ext. intros b1 B1. destruct (meets n1 a1 b1 i1); [apply ofR_mul|reflexivity].
Qed.

(* ---- shifts and padding ---- *)
Lemma meets_shift n a b p : (0 < n)%nat ->
  meets n a b (Nat.modulo (p + (n - Nat.div n 2)) n) = meets n (Nat.modulo (a + Nat.div n 2) n) (Nat.modulo (b + Nat.div n 2) n) (p + Nat.div n 2).
Proof.
  intros N. unfold meets. rewrite Nat.mod_mod by lia. rewrite <- Nat.add_mod by lia. set (h := Nat.div n 2).
  assert (H : (h <= n)%nat) by (unfold h; apply Nat.div_le_upper_bound; lia). clearbody h.
  apply eq_true_iff_eq. rewrite !Nat.eqb_eq.
  assert (Z : forall x y, Nat.modulo x n = Nat.modulo y n <-> exists q, (Z.of_nat x - Z.of_nat y = q * Z.of_nat n)%Z).
  { intros x y. split.
    - intros E. exists (Z.of_nat (Nat.div x n) - Z.of_nat (Nat.div y n))%Z. pose proof (Nat.div_mod x n ltac:(lia)). pose proof (Nat.div_mod y n ltac:(lia)). nia.
    - intros [q E]. apply Nat2Z.inj. rewrite !Nat2Z.inj_mod. replace (Z.of_nat x) with (Z.of_nat y + q * Z.of_nat n)%Z by lia. apply Z.mod_add. lia. }
  rewrite !Z. split; intros [q E]; [exists (q + 1)%Z|exists (q - 1)%Z]; lia.
Qed.
Lemma shift_sum n p (h : nat -> nat -> R) : (0 < n)%nat ->
  rsum n (fun a => rsum n (fun b => if meets n a b (Nat.modulo (p + (n - Nat.div n 2)) n) then h (Nat.modulo (a + Nat.div n 2) n) (Nat.modulo (b + Nat.div n 2) n) else 0)) =
  rsum n (fun a => rsum n (fun b => if meets n a b (p + Nat.div n 2) then h a b else 0)).
Proof.
  intros N. assert (H : (Nat.div n 2 <= n)%nat) by (apply Nat.div_le_upper_bound; lia).
  etransitivity; [|exact (rsum_rot n (Nat.div n 2) (fun a => rsum n (fun b => if meets n a b (p + Nat.div n 2) then h a b else 0)) H)]. apply csum_ext. intros a A. cbv beta.
  etransitivity; [|exact (rsum_rot n (Nat.div n 2) (fun b => if meets n (Nat.modulo (a + Nat.div n 2) n) b (p + Nat.div n 2) then h (Nat.modulo (a + Nat.div n 2) n) b else 0) H)]. apply csum_ext. intros b B. cbv beta.
  now rewrite meets_shift by exact N.
Qed.
Lemma rsum_window N L n (f : nat -> R) : (L + n <= N)%nat -> (forall a, (a < N)%nat -> (a < L \/ L + n <= a)%nat -> f a = 0) ->
  rsum N f = rsum n (fun i => f (L + i)%nat).
Proof.
  intros H Z. replace N with (L + (n + (N - (L + n))))%nat by lia. rewrite (csum_split RR_laws), (csum_split RR_laws). cbn [cadd RR].
  rewrite (csum_ext (K := RR) L f (fun _ => 0)) by (intros i I; apply Z; lia). rewrite (csum_ext (K := RR) (N - (L + n)) _ (fun _ => 0)) by (intros i I; apply Z; lia).
  pose proof (csum_0 RR_laws L) as Z1. pose proof (csum_0 RR_laws (N - (L + n))) as Z2. cbn [c0 RR] in Z1, Z2. rewrite Z1, Z2. etransitivity; [apply Rplus_0_l|]. apply Rplus_0_r.
Qed.
Lemma meets_lands N L i j k : (0 < N)%nat -> (L <= Nat.div N 2)%nat ->
  meets N (L + i) (L + j) (L + k + Nat.div N 2) = lands N (Nat.div N 2 - L) i j k.
Proof.
  intros HN HL. unfold meets, lands. set (h := Nat.div N 2) in *. clearbody h.
  apply eq_true_iff_eq. rewrite !Nat.eqb_eq.
  assert (Z : forall x y, Nat.modulo x N = Nat.modulo y N <-> exists q, (Z.of_nat x - Z.of_nat y = q * Z.of_nat N)%Z).
  { intros x y. split.
    - intros E. exists (Z.of_nat (Nat.div x N) - Z.of_nat (Nat.div y N))%Z. pose proof (Nat.div_mod x N ltac:(lia)). pose proof (Nat.div_mod y N ltac:(lia)). nia.
    - intros [q E]. apply Nat2Z.inj. rewrite !Nat2Z.inj_mod. replace (Z.of_nat x) with (Z.of_nat y + q * Z.of_nat N)%Z by lia. apply Z.mod_add. lia. }
  rewrite !Z. split; intros [q E]; exists q; lia.
Qed.
Lemma window_sum N L n k (h : nat -> nat -> R) : (0 < N)%nat -> (L + n <= N)%nat -> (L <= Nat.div N 2)%nat ->
  (forall a b, (a < L \/ L + n <= a)%nat \/ (b < L \/ L + n <= b)%nat -> h a b = 0) ->
  rsum N (fun a => rsum N (fun b => if meets N a b (L + k + Nat.div N 2) then h a b else 0)) =
  rsum n (fun i => rsum n (fun j => if lands N (Nat.div N 2 - L) i j k then h (L + i)%nat (L + j)%nat else 0)).
Proof.
  intros HN H HL Z. rewrite (rsum_window N L n _ H).
  - apply csum_ext. intros i I. rewrite (rsum_window N L n _ H).
    + apply csum_ext. intros j J. now rewrite meets_lands.
    + intros b B O. rewrite Z by tauto. now destruct (meets _ _ _ _).
  - intros a A O. rewrite (csum_ext (K := RR) N _ (fun _ => 0)); [apply (csum_0 RR_laws)|]. intros b B. rewrite Z by tauto. now destruct (meets _ _ _ _).
Qed.
Lemma if_if_0 (b1 b2 : bool) (x : R) : (if b1 then (if b2 then x else 0) else 0) = if b2 && b1 then x else 0.
Proof. now destruct b1, b2. Qed.
Lemma rsum_if n (b : bool) (f : nat -> R) : (if b then rsum n f else 0) = rsum n (fun i => if b then f i else 0).
Proof. destruct b; [reflexivity|]. symmetry. apply (csum_0 RR_laws). Qed.
Lemma axis_left fast frac n : fast_ok fast -> (fst (axis_pad fast frac n) <= Nat.div (padded fast frac n) 2)%nat.
Proof.
  intros F. unfold padded, axis_pad. destruct fast as [f|]; cbn [fst snd].
  - specialize (F (n + 2 * npad frac n)%nat). set (N := f _) in *. clearbody N. set (l := Nat.div (N - n) 2).
    pose proof (Nat.div_mod (N - n) 2 ltac:(lia)) as D. fold l in D. pose proof (Nat.mod_upper_bound (N - n) 2 ltac:(lia)). apply Nat.div_le_lower_bound; lia.
  - apply Nat.div_le_lower_bound; lia.
Qed.
Lemma pad_out n1 n2 l1 l2 x i j : (i < l1 \/ l1 + n1 <= i)%nat \/ (j < l2 \/ l2 + n2 <= j)%nat -> pad2 n1 n2 l1 l2 x i j = 0.
Proof.
  intros H. unfold pad2. destruct (Nat.leb_spec l1 i), (Nat.ltb_spec i (l1 + n1)), (Nat.leb_spec l2 j), (Nat.ltb_spec j (l2 + n2)); cbn; try reflexivity; lia.
Qed.
Lemma pad_in n1 n2 l1 l2 x i j : (i < n1)%nat -> (j < n2)%nat -> pad2 n1 n2 l1 l2 x (l1 + i)%nat (l2 + j)%nat = x i j.
Proof.
  intros I J. unfold pad2. destruct (Nat.leb_spec l1 (l1 + i)), (Nat.ltb_spec (l1 + i) (l1 + n1)), (Nat.leb_spec l2 (l2 + j)), (Nat.ltb_spec (l2 + j) (l2 + n2)); cbn; try lia.
  f_equal; lia.
Qed.
Lemma convolve_at pocket fast frac n1 n2 M G b k1 k2 :
  fast_ok fast -> (0 < n1)%nat -> (0 < n2)%nat -> pocket = true \/ Nat.even (padded fast frac n2) = true ->
  cu_at (convolve_model pocket fast frac n1 n2 M G) b k1 k2 =
  circular (padded fast frac n1) (padded fast frac n2) (centre fast frac n1) (centre fast frac n2) n1 n2 (M b) G k1 k2.
Proof.
  intros F P1 P2 LC. pose proof (axis_left fast frac n1 F) as L1. pose proof (axis_left fast frac n2 F) as L2.
  unfold centre. unfold padded in *. unfold convolve_model. destruct (axis_pad fast frac n1) as [l1 r1], (axis_pad fast frac n2) as [l2 r2]. cbn [fst snd unpad cu_at] in *.
  set (m1 := (n1 + (l1 + r1))%nat) in *. set (m2 := (n2 + (l2 + r2))%nat) in *.
  assert (LA : last_columns pocket m2 = m2).
  { unfold last_columns. destruct LC as [->|E]; [reflexivity|]. destruct pocket; [reflexivity|]. apply Nat.even_spec in E. destruct E as [q ->].
    rewrite (Nat.mul_comm 2 q), Nat.div_mul by lia. lia. }
  rewrite LA. unfold Fs. rewrite conv2 by lia.
  set (X := pad2 n1 n2 l1 l2 (M b)). set (Y := pad2 n1 n2 l1 l2 G).
  unfold iFs.
  set (H := fun a2 b2 => rsum m1 (fun a => rsum m1 (fun b0 => if meets m1 a b0 (l1 + k1 + Nat.div m1 2) then X a a2 * Y b0 b2 else 0))).
  transitivity (rsum m2 (fun a2 => rsum m2 (fun b2 => if meets m2 a2 b2 (Nat.modulo (l2 + k2 + (m2 - Nat.div m2 2)) m2)
     then H (Nat.modulo (a2 + Nat.div m2 2) m2) (Nat.modulo (b2 + Nat.div m2 2) m2) else 0))).
  { apply (csum_ext (K := RR)). intros a2 A2. apply (csum_ext (K := RR)). intros b2 B2. destruct (meets m2 _ _ _); [|reflexivity].
    exact (shift_sum m1 (l1 + k1) (fun a b => X a (Nat.modulo (a2 + Nat.div m2 2) m2) * Y b (Nat.modulo (b2 + Nat.div m2 2) m2)) ltac:(lia)). }
  rewrite (shift_sum m2 (l2 + k2) H) by lia. unfold H. clear H.
  rewrite (window_sum m2 l2 n2); [|lia|lia|exact L2|].
  2:{ intros a2 b2 O. rewrite (csum_ext (K := RR) m1 _ (fun _ => 0)); [apply (csum_0 RR_laws)|]. intros a A. rewrite (csum_ext (K := RR) m1 _ (fun _ => 0)); [apply (csum_0 RR_laws)|]. intros b0 B0.
      destruct (meets _ _ _ _); [|reflexivity]. unfold X, Y. destruct O as [O|O]; [rewrite (pad_out _ _ _ _ (M b)) by tauto; apply Rmult_0_l|rewrite (pad_out _ _ _ _ G) by tauto; apply Rmult_0_r]. }
  unfold circular.
  transitivity (rsum n2 (fun i2 => rsum n2 (fun j2 => rsum n1 (fun i1 => rsum n1 (fun j1 =>
     if lands m1 (Nat.div m1 2 - l1) i1 j1 k1 && lands m2 (Nat.div m2 2 - l2) i2 j2 k2 then M b i1 i2 * G j1 j2 else 0))))).
  { apply (csum_ext (K := RR)). intros i2 I2. apply (csum_ext (K := RR)). intros j2 J2. rewrite (window_sum m1 l1 n1); [|lia|lia|exact L1|].
    2:{ intros a b0 O. unfold X, Y. destruct O as [O|O]; [rewrite (pad_out _ _ _ _ (M b)) by tauto; apply Rmult_0_l|rewrite (pad_out _ _ _ _ G) by tauto; apply Rmult_0_r]. }
    rewrite rsum_if. apply (csum_ext (K := RR)). intros i1 I1. rewrite rsum_if. apply (csum_ext (K := RR)). intros j1 J1. rewrite if_if_0. unfold X, Y. now rewrite !pad_in by assumption. }
  transitivity (rsum n2 (fun i2 => rsum n1 (fun i1 => rsum n1 (fun j1 => rsum n2 (fun j2 =>
     if lands m1 (Nat.div m1 2 - l1) i1 j1 k1 && lands m2 (Nat.div m2 2 - l2) i2 j2 k2 then M b i1 i2 * G j1 j2 else 0))))); [|apply (csum_swap RR_laws)].
  apply (csum_ext (K := RR)). intros i2 I2. etransitivity; [apply (csum_swap RR_laws)|]. apply (csum_ext (K := RR)). intros i1 I1. apply (csum_swap RR_laws).
Qed.
