From Coq Require Import Reals Lra.
From Verif Require Import Prelude CRing CplxR FftFacts RestoreModel RestoreSpec RestoreProofs.
Open Scope R_scope.

(* ---- shapes ---- *)
Lemma convolve_shape pocket fast frac n1 n2 M G :
  cu_1 (convolve_model pocket fast frac n1 n2 M G) = (if (snd (axis_pad fast frac n1) =? 0)%nat then 0 else n1)%nat /\
  cu_2 (convolve_model pocket fast frac n1 n2 M G) =
    (if (snd (axis_pad fast frac n2) =? 0)%nat then 0 else if pocket || Nat.even (padded fast frac n2) then n2 else n2 - 1)%nat.
Proof.
  unfold convolve_model, padded. destruct (axis_pad fast frac n1) as [l1 r1], (axis_pad fast frac n2) as [l2 r2]. cbn [fst snd unpad cu_1 cu_2]. split.
  - destruct (Nat.eqb_spec r1 0); lia.
  - destruct (Nat.eqb_spec r2 0) as [->|N]; [lia|]. unfold last_columns. destruct pocket; cbn [orb]; [lia|].
    destruct (Nat.even _) eqn:E.
    + apply Nat.even_spec in E. destruct E as [q E]. rewrite E, (Nat.mul_comm 2 q), Nat.div_mul by lia. lia.
    + pose proof (Nat.negb_even (n2 + (l2 + r2))) as O. rewrite E in O. cbn in O. symmetry in O. apply Nat.odd_spec in O. destruct O as [q O].
      rewrite O. replace (2 * q + 1)%nat with (1 + q * 2)%nat by lia. rewrite Nat.div_add by lia. cbn [Nat.div fst Nat.divmod]. lia.
Qed.
Lemma no_right_pad fast frac n : fast_ok fast -> (snd (axis_pad fast frac n) = 0 <-> padded fast frac n = n)%nat.
Proof.
  intros F. unfold padded, axis_pad. destruct fast as [f|]; cbn [fst snd].
  - specialize (F (n + 2 * npad frac n)%nat). set (N := f _) in *. clearbody N. pose proof (Nat.div_mod (N - n) 2 ltac:(lia)). pose proof (Nat.mod_upper_bound (N - n) 2 ltac:(lia)). lia.
  - lia.
Qed.
Lemma centre_at fast frac n : fast_ok fast ->
  centre fast frac n = (if Nat.odd n && Nat.even (padded fast frac n) then Nat.div n 2 + 1 else Nat.div n 2)%nat.
Proof.
  intros F. unfold centre, padded, axis_pad. destruct fast as [f|]; cbn [fst snd].
  - specialize (F (n + 2 * npad frac n)%nat). set (N := f _) in *. clearbody N. set (l := Nat.div (N - n) 2).
    pose proof (Nat.div_mod (N - n) 2 ltac:(lia)) as D. pose proof (Nat.mod_upper_bound (N - n) 2 ltac:(lia)). fold l in D.
    replace (n + (l + (N - n - l)))%nat with N by lia. pose proof (Nat.div_mod N 2 ltac:(lia)). pose proof (Nat.mod_upper_bound N 2 ltac:(lia)).
    pose proof (Nat.div_mod n 2 ltac:(lia)). pose proof (Nat.mod_upper_bound n 2 ltac:(lia)).
    assert (O : Nat.odd n = (Nat.modulo n 2 =? 1)%nat). { rewrite <- Nat.bit0_odd, Nat.bit0_eqb. reflexivity. }
    assert (E : Nat.even N = (Nat.modulo N 2 =? 0)%nat). { rewrite <- Nat.negb_odd, <- Nat.bit0_odd, Nat.bit0_eqb. destruct (Nat.eqb_spec (Nat.modulo N 2) 1), (Nat.eqb_spec (Nat.modulo N 2) 0); cbn; lia. }
    rewrite O, E. destruct (Nat.eqb_spec (Nat.modulo n 2) 1), (Nat.eqb_spec (Nat.modulo N 2) 0); cbn [andb]; lia.
  - replace (n + (npad frac n + npad frac n))%nat with (n + npad frac n * 2)%nat by lia. rewrite Nat.div_add by lia.
    replace (Nat.even (n + npad frac n * 2)) with (Nat.even n).
    + rewrite <- Nat.negb_even. destruct (Nat.even n); cbn; lia.
    + rewrite Nat.even_add, Nat.even_mul. cbn. rewrite orb_true_r. now destruct (Nat.even n).
Qed.
Lemma padded_ge fast frac n : (n <= padded fast frac n)%nat.
Proof. unfold padded. lia. Qed.

(* ---- from the circular sum to a sum over displaced beams ---- *)
Lemma lands_exact m c i j k n (w : R) : (i < n)%nat -> (k < n)%nat -> (n <= m)%nat -> Rabs (INR j - INR c) <= w -> w < INR m - INR n + 1 ->
  lands m c i j k = true <-> (i + j = k + c)%nat.
Proof.
  intros I K N W H. unfold lands. rewrite Nat.eqb_eq. split; [|congruence]. intros E.
  assert (D : (Z.abs (Z.of_nat j - Z.of_nat c) <= Z.of_nat m - Z.of_nat n)%Z).
  { assert (Q : IZR (Z.abs (Z.of_nat j - Z.of_nat c)) < IZR (Z.of_nat m - Z.of_nat n + 1)).
    { rewrite abs_IZR, plus_IZR, !minus_IZR, <- !INR_IZR_INZ. cbn. lra. }
    apply lt_IZR in Q. lia. }
  assert (exists q, (Z.of_nat (i + j) - Z.of_nat (k + c) = q * Z.of_nat m)%Z) as [q Q].
  { exists (Z.of_nat (Nat.div (i + j) m) - Z.of_nat (Nat.div (k + c) m))%Z. pose proof (Nat.div_mod (i + j) m ltac:(lia)). pose proof (Nat.div_mod (k + c) m ltac:(lia)). nia. }
  assert (q = 0%Z) by nia. subst q. lia.
Qed.
Lemma rsum_zero n (f : nat -> R) : (forall i, (i < n)%nat -> f i = 0) -> rsum n f = 0.
Proof. intros H. transitivity (rsum n (fun _ => 0)); [apply (csum_ext (K := RR)); exact H|apply (csum_0 RR_laws)]. Qed.
(* one axis: at most one kernel pixel lands on k *)
Lemma axis_pick m n c k i (r e : R) (g : nat -> R) (beam : R -> R) :
  (i < n)%nat -> (k < n)%nat -> (n <= m)%nat ->
  e <= r -> r + e <= INR n - 1 -> e + Rabs (INR c - r) < INR m - INR n + 1 ->
  (forall d, e < Rabs d -> beam d = 0) -> (forall j, (j < n)%nat -> g j = beam (INR j - r)) ->
  rsum n (fun j => if lands m c i j k then g j else 0) = beam (INR k - INR i + (INR c - r)).
Proof.
  intros I K N E1 E2 E3 B G.
  assert (FAR : forall j, (j < n)%nat -> g j <> 0 -> lands m c i j k = true <-> (i + j = k + c)%nat).
  { intros j J NZ. apply (lands_exact m c i j k n (e + Rabs (INR c - r)) I K N); [|exact E3].
    assert (Rabs (INR j - r) <= e). { destruct (Rlt_le_dec e (Rabs (INR j - r))) as [F|F]; [|exact F]. exfalso. apply NZ. rewrite G by exact J. now apply B. }
    replace (INR j - INR c) with ((INR j - r) + - (INR c - r)) by ring. eapply Rle_trans; [apply Rabs_triang|]. rewrite Rabs_Ropp. lra. }
  destruct (le_lt_dec i (k + c)) as [L|L]; [destruct (le_lt_dec n (k + c - i)) as [L2|L2]|].
  - (* beyond the kernel image *)
    rewrite rsum_zero.
    + symmetry. apply B. apply le_INR in L2. rewrite minus_INR, plus_INR in L2 by lia.
      apply Rlt_le_trans with (INR k - INR i + (INR c - r)); [lra|apply Rle_abs].
    + intros j J. destruct (Req_dec (g j) 0) as [Z|Z]; [now destruct (lands _ _ _ _ _)|]. destruct (lands m c i j k) eqn:Q; [|reflexivity]. apply (FAR j J Z) in Q. lia.
  - etransitivity; [apply (csum_only RR_laws n (k + c - i)%nat); [exact L2|]|].
    + intros j J NE. cbn [c0 RR]. destruct (Req_dec (g j) 0) as [Z|Z]; [now destruct (lands _ _ _ _ _)|]. destruct (lands m c i j k) eqn:Q; [|reflexivity]. apply (FAR j J Z) in Q. lia.
    + cbv beta. rewrite (proj2 (Nat.eqb_eq _ _) (f_equal (fun x => Nat.modulo x m) (ltac:(lia) : (i + (k + c - i) = k + c)%nat)) : lands m c i (k + c - i) k = true).
      rewrite G by exact L2. f_equal. rewrite minus_INR, plus_INR by lia. ring.
  - rewrite rsum_zero.
    + symmetry. apply B. apply lt_INR in L. rewrite plus_INR in L. assert (Q : INR k + INR c + 1 <= INR i). { rewrite <- plus_INR, <- S_INR. apply le_INR. apply INR_lt. rewrite plus_INR. lra. }
      rewrite <- Rabs_Ropp. apply Rlt_le_trans with (- (INR k - INR i + (INR c - r))); [lra|apply Rle_abs].
    + intros j J. destruct (Req_dec (g j) 0) as [Z|Z]; [now destruct (lands _ _ _ _ _)|]. destruct (lands m c i j k) eqn:Q; [|reflexivity]. apply (FAR j J Z) in Q. lia.
Qed.
Lemma circular_restored m1 m2 c1 c2 n1 n2 (x g : arr2 R) beam r1 r2 e1 e2 k1 k2 :
  (k1 < n1)%nat -> (k2 < n2)%nat -> (n1 <= m1)%nat -> (n2 <= m2)%nat ->
  e1 <= r1 -> r1 + e1 <= INR n1 - 1 -> e1 + Rabs (INR c1 - r1) < INR m1 - INR n1 + 1 ->
  e2 <= r2 -> r2 + e2 <= INR n2 - 1 -> e2 + Rabs (INR c2 - r2) < INR m2 - INR n2 + 1 ->
  (forall d1 d2, e1 < Rabs d1 \/ e2 < Rabs d2 -> beam d1 d2 = 0) ->
  (forall j1 j2, (j1 < n1)%nat -> (j2 < n2)%nat -> g j1 j2 = beam (INR j1 - r1) (INR j2 - r2)) ->
  circular m1 m2 c1 c2 n1 n2 x g k1 k2 = restored n1 n2 beam (INR c1 - r1) (INR c2 - r2) x k1 k2.
Proof.
  intros K1 K2 N1 N2 A1 A2 A3 B1 B2 B3 Z G. unfold circular, restored.
  apply (csum_ext (K := RR)). intros i1 I1. apply (csum_ext (K := RR)). intros i2 I2.
  transitivity (rsum n1 (fun j1 => if lands m1 c1 i1 j1 k1 then x i1 i2 * beam (INR j1 - r1) (INR k2 - INR i2 + (INR c2 - r2)) else 0)).
  - apply (csum_ext (K := RR)). intros j1 J1. destruct (lands m1 c1 i1 j1 k1) eqn:Q; cbn [andb].
    2:{ apply rsum_zero. reflexivity. }
    etransitivity; [|apply f_equal, (axis_pick m2 n2 c2 k2 i2 r2 e2 (fun j2 => g j1 j2) (beam (INR j1 - r1)) I2 K2 N2 B1 B2 B3); [intros d D; apply Z; tauto|intros j J; now apply G]].
    etransitivity; [|apply (csum_mul_l RR_laws n2 (x i1 i2))]. apply (csum_ext (K := RR)). intros j2 J2. cbn [cmul RR]. destruct (lands m2 c2 i2 j2 k2); [reflexivity|]. symmetry. apply Rmult_0_r.
  - set (bb := fun d1 => beam d1 (INR k2 - INR i2 + (INR c2 - r2))).
    etransitivity; [|apply f_equal, (axis_pick m1 n1 c1 k1 i1 r1 e1 (fun j1 => bb (INR j1 - r1)) bb I1 K1 N1 A1 A2 A3); [intros d D; apply Z; tauto|reflexivity]].
    etransitivity; [|apply (csum_mul_l RR_laws n1 (x i1 i2))]. apply (csum_ext (K := RR)). intros j1 J1. cbn [cmul RR]. destruct (lands m1 c1 i1 j1 k1); [reflexivity|]. symmetry. apply Rmult_0_r.
Qed.
