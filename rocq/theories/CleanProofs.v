From Coq Require Import Reals Lra Lia.
From Verif Require Import Prelude PreludeFacts CRing CplxR DftSpec DftProofs HogModel HogSpec HogProofs CleanSpec.
Open Scope R_scope.

Lemma rsum_S n f : rsum (S n) f = rsum n f + f n. Proof. reflexivity. Qed.
Lemma rsum_nonneg n f : (forall i, (i < n)%nat -> 0 <= f i) -> 0 <= rsum n f.
Proof. induction n as [|n IH]; intros H; [apply Rle_refl|]. rewrite rsum_S. apply Rplus_le_le_0_compat; [apply IH; intros; apply H; lia|apply H; lia]. Qed.
Lemma rsum_sub n f g : rsum n (fun i => f i - g i) = rsum n f - rsum n g.
Proof. induction n as [|n IH]; [change (0 = 0 - 0); ring|]. rewrite !rsum_S, IH. ring. Qed.
Lemma rsum_pick n k f : (k < n)%nat -> rsum n (fun i => if Nat.eqb i k then f i else 0) = f k.
Proof.
  intros Hk. induction n as [|n IH]; [lia|]. rewrite rsum_S. destruct (Nat.eq_dec k n) as [->|Ne].
  - rewrite Nat.eqb_refl. rewrite (rsum_ext n _ (fun _ => 0)), rsum_0; [ring|]. intros i Hi. rewrite (proj2 (Nat.eqb_neq i n)) by lia. reflexivity.
  - rewrite IH by lia. rewrite (proj2 (Nat.eqb_neq n k)) by lia. ring.
Qed.
Lemma inner_ext n a b a' b' : (forall x y, in_image n n x y -> a x y = a' x y) -> (forall x y, in_image n n x y -> b x y = b' x y) -> inner n a b = inner n a' b'.
Proof. intros H H'. apply rsum_ext. intros x Hx. apply rsum_ext. intros y Hy. rewrite H, H' by (split; assumption). reflexivity. Qed.
Lemma spread_ext n a b psf x y : (forall x y, in_image n n x y -> a x y = b x y) -> spread n a psf x y = spread n b psf x y.
Proof. intros H. apply (rsum_ext n). intros p Hp. apply (rsum_ext n). intros q Hq. rewrite H by (split; assumption). reflexivity. Qed.

(* an image less g at one pixel *)
Definition less (D : arr2 R) (g : R) (p q : nat) : arr2 R := fun x y => D x y - (if Nat.eqb x p then if Nat.eqb y q then g else 0 else 0).
Lemma less_pick n g p q F : in_image n n p q ->
  rsum n (fun x => rsum n (fun y => (if Nat.eqb x p then if Nat.eqb y q then g else 0 else 0) * F x y)) = g * F p q.
Proof.
  intros [Hp Hq]. rewrite <- (rsum_pick n p (fun x => g * F x q) Hp). apply rsum_ext. intros x Hx. destruct (Nat.eqb x p).
  - rewrite <- (rsum_pick n q (fun y => g * F x y) Hq). apply rsum_ext. intros y Hy. destruct (Nat.eqb y q); ring.
  - rewrite (rsum_ext n _ (fun _ => 0)), rsum_0 by (intros; ring). reflexivity.
Qed.
Lemma spread_less n D psf g p q x y : in_image n n p q ->
  spread n (less D g p q) psf x y = spread n D psf x y - g * psf (n - 1 + x - p)%nat (n - 1 + y - q)%nat.
Proof.
  intros H. change (spread n (less D g p q) psf x y) with (rsum n (fun p' => rsum n (fun q' => less D g p q p' q' * psf (n - 1 + x - p')%nat (n - 1 + y - q')%nat))).
  rewrite <- (less_pick n g p q (fun p' q' => psf (n - 1 + x - p')%nat (n - 1 + y - q')%nat) H).
  change (spread n D psf x y) with (rsum n (fun p' => rsum n (fun q' => D p' q' * psf (n - 1 + x - p')%nat (n - 1 + y - q')%nat))).
  rewrite <- rsum_sub. apply rsum_ext. intros p' _. rewrite <- rsum_sub. apply rsum_ext. intros q' _. unfold less. ring.
Qed.
Lemma inner_less n D g p q F : in_image n n p q -> inner n (less D g p q) F = inner n D F - g * F p q.
Proof.
  intros H. unfold inner. rewrite <- (less_pick n g p q F H), <- rsum_sub. apply rsum_ext. intros x _. rewrite <- rsum_sub. apply rsum_ext. intros y _. unfold less. ring.
Qed.
Lemma inner_sub n D F G : inner n D (fun x y => F x y - G x y) = inner n D F - inner n D G.
Proof. unfold inner. rewrite <- rsum_sub. apply rsum_ext. intros x _. rewrite <- rsum_sub. apply rsum_ext. intros y _. ring. Qed.
Lemma inner_scale n D g F : inner n D (fun x y => g * F x y) = g * inner n D F.
Proof. unfold inner. rewrite <- rsum_scale. apply rsum_ext. intros x _. rewrite <- rsum_scale. apply rsum_ext. intros y _. ring. Qed.

Section Clean.
  Context (n : nat) (psf sky : arr2 R) (Sym : symmetric n psf).
  Let a := psf (n - 1)%nat (n - 1)%nat.
  Lemma energy_less D g p q : in_image n n p q ->
    inner n (less D g p q) (spread n (less D g p q) psf) = inner n D (spread n D psf) - 2 * g * spread n D psf p q + g * g * a.
  Proof using Sym.
    intros H. rewrite inner_less by exact H.
    rewrite (inner_ext n D (spread n (less D g p q) psf) D (fun x y => spread n D psf x y - g * psf (n - 1 + x - p)%nat (n - 1 + y - q)%nat)).
    2: reflexivity. 2: intros x y _; apply spread_less; exact H.
    rewrite inner_sub, inner_scale, spread_less by exact H.
    replace (n - 1 + p - p)%nat with (n - 1)%nat by lia. replace (n - 1 + q - q)%nat with (n - 1)%nat by lia. fold a.
    replace (inner n D (fun x y => psf (n - 1 + x - p)%nat (n - 1 + y - q)%nat)) with (spread n D psf p q); [ring|].
    symmetry. apply rsum_ext. intros x Hx. apply rsum_ext. intros y Hy. rewrite (Sym x y p q); [reflexivity| |exact H]. split; assumption.
  Qed.

  Definition fits (C R : arr2 R) : Prop := forall x y, in_image n n x y -> R x y = spread n (minus sky C) psf x y.
  Lemma cycle_energy gamma v p q C R C' R' : minor_cycle n psf gamma v p q C R C' R' -> in_image n n p q -> R p q = v -> fits C R ->
    fits C' R' /\ distance2 n psf sky C' = distance2 n psf sky C - gamma * (2 - gamma * a) * (v * v).
  Proof using Sym.
    intros [MC MR] H V F.
    assert (E : forall x y, minus sky C' x y = less (minus sky C) (gamma * v) p q x y).
    { intros x y. unfold minus, less. rewrite MC. destruct (Nat.eqb x p), (Nat.eqb y q); cbn [andb]; ring. }
    assert (ES : forall x y, spread n (minus sky C') psf x y = spread n (minus sky C) psf x y - gamma * v * psf (n - 1 + x - p)%nat (n - 1 + y - q)%nat).
    { intros x y. rewrite (spread_ext n _ (less (minus sky C) (gamma * v) p q)) by (intros; apply E). now apply spread_less. }
    split.
    - intros x y I. rewrite MR by exact I. rewrite ES, (F x y I). reflexivity.
    - unfold distance2. rewrite (inner_ext n _ _ (less (minus sky C) (gamma * v) p q) (spread n (less (minus sky C) (gamma * v) p q) psf)).
      + rewrite energy_less by exact H. rewrite <- (F p q H), V. ring.
      + intros; apply E.
      + intros x y _. apply spread_ext. intros; apply E.
  Qed.
  Lemma run_energy gamma thr k Cs Rs : clean_run n psf gamma thr k Cs Rs -> 0 <= gamma * (2 - gamma * a) -> 0 <= thr -> fits (Cs 0%nat) (Rs 0%nat) ->
    fits (Cs k) (Rs k) /\ distance2 n psf sky (Cs k) + INR k * (gamma * (2 - gamma * a) * (thr * thr)) <= distance2 n psf sky (Cs 0%nat).
  Proof using Sym.
    intros Run G T F0. induction k as [|k IH].
    - split; [exact F0|]. cbn [INR]. lra.
    - destruct IH as [F E]; [intros i Hi; apply Run; lia|]. destruct (Run k (Nat.lt_succ_diag_r k)) as (v & p & q & _ & (H & V & _) & L & MC).
      destruct (cycle_energy _ _ _ _ _ _ _ _ MC H V F) as [F' E']. split; [exact F'|]. rewrite E', S_INR.
      assert (thr * thr <= v * v). { rewrite <- (Rabs_pos_eq (v * v)) by nra. rewrite Rabs_mult. apply Rmult_le_compat; lra. }
      assert (gamma * (2 - gamma * a) * (thr * thr) <= gamma * (2 - gamma * a) * (v * v)) by (apply Rmult_le_compat_l; assumption). lra.
  Qed.
End Clean.

Lemma distance2_0 n psf sky dirty C : (forall x y, in_image n n x y -> dirty x y = spread n sky psf x y) -> (forall x y, C x y = 0) ->
  distance2 n psf sky C = inner n sky dirty.
Proof.
  intros H C0. apply inner_ext.
  - intros x y _. unfold minus. rewrite C0. ring.
  - intros x y I. rewrite H by exact I. apply spread_ext. intros p q _. unfold minus. rewrite C0. ring.
Qed.
Lemma max_unique n a v w : is_max n n a v -> is_max n n a w -> v = w.
Proof. intros [(x & y & I & <-) B] [(x' & y' & I' & <-) B']. apply Rle_antisym; auto. Qed.

Lemma clean_improves n dirty psf sky gamma threshold niter C R : (0 < n)%nat -> symmetric n psf ->
  (forall x y, in_image n n x y -> dirty x y = spread n sky psf x y) ->
  0 <= gamma -> gamma * psf (n - 1)%nat (n - 1)%nat <= 2 -> 0 <= fraction threshold ->
  hogbom_clean n n dirty (2 * n) (2 * n) psf gamma threshold niter = Ok (C, R) ->
  (forall x y, in_image n n x y -> R x y = spread n (minus sky C) psf x y) /\ distance2 n psf sky C <= inner n sky dirty.
Proof.
  intros Hn Sym D G0 G T E. destruct (hogbom_spec n dirty psf gamma threshold niter Hn) as (v & k & Cs & Rs & M & E' & K & C0 & R0 & Run & _).
  rewrite E in E'. injection E' as -> ->.
  destruct (run_energy n psf sky Sym gamma _ k Cs Rs Run) as [F En].
  - apply Rmult_le_pos; lra.
  - apply Rmult_le_pos; [exact T|apply Rabs_pos].
  - intros x y I. rewrite R0, (D x y I). apply spread_ext. intros p q _. unfold minus. rewrite C0. ring.
  - split; [exact F|]. rewrite (distance2_0 n psf sky dirty (Cs 0%nat) D C0) in En.
    set (thr := _ * Rabs v) in En. assert (0 <= INR k * (gamma * (2 - gamma * psf (n - 1)%nat (n - 1)%nat) * (thr * thr))); [|lra].
    apply Rmult_le_pos; [apply pos_INR|]. apply Rmult_le_pos; [apply Rmult_le_pos; lra|]. nra.
Qed.
Lemma clean_converges n dirty psf sky gamma threshold niter v C R : (0 < n)%nat -> symmetric n psf -> positive n psf ->
  (forall x y, in_image n n x y -> dirty x y = spread n sky psf x y) ->
  0 <= gamma -> gamma * psf (n - 1)%nat (n - 1)%nat <= 2 -> 0 <= fraction threshold -> is_max n n dirty v ->
  let thr := fraction threshold * Rabs v in
  inner n sky dirty < IZR (niter_of n niter + 1) * (gamma * (2 - gamma * psf (n - 1)%nat (n - 1)%nat) * (thr * thr)) ->
  hogbom_clean n n dirty (2 * n) (2 * n) psf gamma threshold niter = Ok (C, R) ->
  exists r, is_max n n R r /\ Rabs r <= thr.
Proof.
  intros Hn Sym Pos D G0 G T M thr Hk E. destruct (hogbom_spec n dirty psf gamma threshold niter Hn) as (v' & k & Cs & Rs & M' & E' & K & C0 & R0 & Run & Stop).
  rewrite (max_unique _ _ _ _ M' M) in *. clear v' M'. rewrite E in E'. injection E' as -> ->. fold (fraction threshold) in Run, Stop. fold thr in Run, Stop.
  destruct (Nat.lt_ge_cases k (Z.to_nat (niter_of n niter + 1))) as [L|L]; [apply Stop; exact L|exfalso].
  assert (G1 : 0 <= gamma * (2 - gamma * psf (n - 1)%nat (n - 1)%nat)) by (apply Rmult_le_pos; lra).
  assert (T0 : 0 <= thr) by (apply Rmult_le_pos; [exact T|apply Rabs_pos]).
  destruct (run_energy n psf sky Sym gamma _ k Cs Rs Run G1 T0) as [_ En].
  { intros x y I. rewrite R0, (D x y I). apply spread_ext. intros p q _. unfold minus. rewrite C0. ring. }
  rewrite (distance2_0 n psf sky dirty (Cs 0%nat) D C0) in En. pose proof (Pos (minus sky (Cs k))) as P. fold (distance2 n psf sky (Cs k)) in P.
  set (d := gamma * (2 - gamma * psf (n - 1)%nat (n - 1)%nat) * (thr * thr)) in *.
  assert (d0 : 0 <= d) by (apply Rmult_le_pos; [exact G1|nra]).
  assert (I : IZR (niter_of n niter + 1) <= INR k).
  { rewrite INR_IZR_INZ. apply IZR_le. lia. }
  assert (IZR (niter_of n niter + 1) * d <= INR k * d) by (apply Rmult_le_compat_r; assumption). lra.
Qed.

(* ---------- sums of cosines ---------- *)
Lemma sampled_symmetric n m w a b : symmetric n (sampled_psf n m w a b).
Proof.
  intros x y p q [Hx Hy] [Hp Hq]. unfold sampled_psf. apply rsum_ext. intros k _. f_equal. rewrite <- cos_neg. f_equal.
  rewrite !minus_INR, !plus_INR, ?minus_INR by lia. ring.
Qed.
Lemma square_sum n (z F : arr2 R) : rsum n (fun x => rsum n (fun y => z x y * (rsum n (fun p => rsum n (fun q => z p q * (F x y * F p q)))))) =
  (rsum n (fun x => rsum n (fun y => z x y * F x y))) * (rsum n (fun x => rsum n (fun y => z x y * F x y))).
Proof.
  set (t := rsum n (fun x => rsum n (fun y => z x y * F x y))). transitivity (rsum n (fun x => rsum n (fun y => z x y * F x y)) * t); [|reflexivity].
  rewrite <- (rsum_scale_r n _ t). apply rsum_ext. intros x _.
  rewrite <- rsum_scale_r. apply rsum_ext. intros y _.
  replace (rsum n (fun p => rsum n (fun q => z p q * (F x y * F p q)))) with (F x y * t); [ring|].
  unfold t. rewrite <- rsum_scale. apply rsum_ext. intros p _. rewrite <- rsum_scale. apply rsum_ext. intros q _. ring.
Qed.
Lemma sampled_positive n m w a b : (forall k, (k < m)%nat -> 0 <= w k) -> positive n (sampled_psf n m w a b).
Proof.
  intros W z.
  pose (th := fun k x y => a k * INR x + b k * INR y).
  assert (E : inner n z (spread n z (sampled_psf n m w a b)) =
    rsum m (fun k => w k * (rsum n (fun x => rsum n (fun y => z x y * cos (th k x y))) * rsum n (fun x => rsum n (fun y => z x y * cos (th k x y))) +
                            rsum n (fun x => rsum n (fun y => z x y * sin (th k x y))) * rsum n (fun x => rsum n (fun y => z x y * sin (th k x y)))))).
  { rewrite (rsum_ext m _ (fun k => w k * (rsum n (fun x => rsum n (fun y => z x y * (rsum n (fun p => rsum n (fun q => z p q * cos (th k x y - th k p q))))))))).
    2: { intros k _. f_equal. rewrite <- !(square_sum n z). rewrite <- rsum_add. apply rsum_ext. intros x _. rewrite <- rsum_add. apply rsum_ext. intros y _.
         rewrite <- Rmult_plus_distr_l. f_equal. rewrite <- rsum_add. apply rsum_ext. intros p _. rewrite <- rsum_add. apply rsum_ext. intros q _. rewrite cos_minus. ring. }
    unfold inner.
    transitivity (rsum n (fun x => rsum n (fun y => rsum m (fun k => w k * (z x y * rsum n (fun p => rsum n (fun q => z p q * cos (th k x y - th k p q)))))))).
    - apply rsum_ext. intros x Hx. apply rsum_ext. intros y Hy.
      transitivity (z x y * rsum m (fun k => w k * rsum n (fun p => rsum n (fun q => z p q * cos (th k x y - th k p q))))).
      + f_equal. change (spread n z (sampled_psf n m w a b) x y) with (rsum n (fun p => rsum n (fun q => z p q * sampled_psf n m w a b (n - 1 + x - p)%nat (n - 1 + y - q)%nat))).
        transitivity (rsum n (fun p => rsum n (fun q => rsum m (fun k => w k * (z p q * cos (th k x y - th k p q)))))).
        * apply rsum_ext. intros p Hp. apply rsum_ext. intros q Hq. unfold sampled_psf. rewrite <- rsum_scale. apply rsum_ext. intros k _.
          replace (a k * (INR (n - 1 + x - p) - INR (n - 1)) + b k * (INR (n - 1 + y - q) - INR (n - 1))) with (th k x y - th k p q); [ring|].
          unfold th. rewrite !minus_INR, !plus_INR, ?minus_INR by lia. ring.
        * transitivity (rsum n (fun p => rsum m (fun k => rsum n (fun q => w k * (z p q * cos (th k x y - th k p q)))))); [apply rsum_ext; intros p _; apply rsum_swap|].
          rewrite rsum_swap. apply rsum_ext. intros k _. rewrite <- rsum_scale. apply rsum_ext. intros p _. rewrite <- rsum_scale. reflexivity.
      + rewrite <- rsum_scale. apply rsum_ext. intros k _. ring.
    - transitivity (rsum n (fun x => rsum m (fun k => rsum n (fun y => w k * (z x y * rsum n (fun p => rsum n (fun q => z p q * cos (th k x y - th k p q)))))))); [apply rsum_ext; intros x _; apply rsum_swap|].
      rewrite rsum_swap. apply rsum_ext. intros k _. rewrite <- rsum_scale. apply rsum_ext. intros x _. rewrite <- rsum_scale. reflexivity. }
  rewrite E. apply rsum_nonneg. intros k Hk. apply Rmult_le_pos; [now apply W|]. nra.
Qed.

(* ---------- one pixel ---------- *)
Lemma one_pixel gamma threshold niter C R : hogbom_clean 1 1 (fun _ _ => 1) 2 2 (point_psf 0 0) gamma threshold niter = Ok (C, R) ->
  exists k, (k <= Z.to_nat (niter_of 1 niter + 1))%nat /\ R 0%nat 0%nat = (1 - gamma) ^ k /\
    ((k < Z.to_nat (niter_of 1 niter + 1))%nat -> Rabs ((1 - gamma) ^ k) <= fraction threshold).
Proof.
  intros E. destruct (hogbom_spec 1 (fun _ _ => 1) (point_psf 0 0) gamma threshold niter ltac:(lia)) as (v & k & Cs & Rs & M & E' & K & C0 & R0 & Run & Stop).
  change (hogbom_clean 1 1 (fun _ _ : nat => 1) (2 * 1) (2 * 1) (point_psf 0 0) gamma threshold niter) with (hogbom_clean 1 1 (fun _ _ : nat => 1) 2 2 (point_psf 0 0) gamma threshold niter) in E'.
  rewrite E in E'. injection E' as -> ->.
  assert (V : forall a w, is_max 1 1 a w -> w = a 0%nat 0%nat).
  { intros a w [(x & y & [Hx Hy] & <-) _]. assert (x = 0 /\ y = 0)%nat as [-> ->] by lia. reflexivity. }
  assert (P : forall j, (j <= k)%nat -> Rs j 0%nat 0%nat = (1 - gamma) ^ j).
  { induction j as [|j IH]; intros Hj; [rewrite R0; reflexivity|]. destruct (Run j ltac:(lia)) as (w & p & q & Mx & ([Hp Hq] & _) & _ & _ & MR).
    assert (p = 0 /\ q = 0)%nat as [-> ->] by lia. rewrite (V _ _ Mx) in MR. rewrite MR by (split; lia). rewrite IH by lia.
    cbn [Nat.sub Nat.add]. unfold point_psf. cbn [Nat.eqb andb]. cbn [pow]. ring. }
  exists k. split; [exact K|]. split; [apply P; lia|]. intros L. destruct (Stop L) as (w & Mx & B). rewrite (V _ _ Mx), P in B by lia.
  rewrite (V _ _ M), Rabs_R1, Rmult_1_r in B. exact B.
Qed.
Lemma point_symmetric : symmetric 1 (point_psf 0 0).
Proof. intros x y p q [Hx Hy] [Hp Hq]. assert (x = 0 /\ y = 0 /\ p = 0 /\ q = 0)%nat as (-> & -> & -> & ->) by lia. reflexivity. Qed.
Lemma inner_1 a b : inner 1 a b = a 0%nat 0%nat * b 0%nat 0%nat.
Proof. change (0 + (0 + a 0%nat 0%nat * b 0%nat 0%nat) = a 0%nat 0%nat * b 0%nat 0%nat). ring. Qed.
Lemma spread_1 a x y : in_image 1 1 x y -> spread 1 a (point_psf 0 0) x y = a 0%nat 0%nat.
Proof.
  intros [Hx Hy]. assert (x = 0 /\ y = 0)%nat as [-> ->] by lia. change (0 + (0 + a 0%nat 0%nat * 1) = a 0%nat 0%nat). ring.
Qed.
Lemma point_positive : positive 1 (point_psf 0 0).
Proof. intros z. rewrite inner_1, spread_1 by (split; lia). nra. Qed.
Lemma one_max : is_max 1 1 (fun _ _ => 1) 1.
Proof. split; [exists 0%nat, 0%nat; split; [split; lia|reflexivity]|]. intros. lra. Qed.
