(* distances, covariances and their positivity *)
From Coq Require Import Reals Lra.
From Verif Require Import Prelude PreludeFacts CRing CplxR GpsModel GpsSpec.
Close Scope R_scope.
Open Scope nat_scope.

Lemma sum_nonneg n (f : nat -> R) : (forall i, i < n -> (0 <= f i)%R) -> (0 <= csum (K := RR) n f)%R.
Proof. induction n as [|n IH]; intros H; cbn; [lra|]. specialize (IH (fun i Hi => H i (Nat.lt_lt_succ_r _ _ Hi))). specialize (H n (Nat.lt_succ_diag_r n)). cbn in IH. lra. Qed.
Lemma sum_zero n (f : nat -> R) : (forall i, i < n -> (0 <= f i)%R) -> csum (K := RR) n f = 0%R -> forall i, i < n -> f i = 0%R.
Proof.
  induction n as [|n IH]; intros H E i Hi; [lia|]. cbn in E. assert (H' : forall i, i < n -> (0 <= f i)%R) by (intros j Hj; apply H; lia). pose proof (sum_nonneg n f H') as P. pose proof (H n (Nat.lt_succ_diag_r n)) as Q. cbn in P.
  destruct (Nat.eq_dec i n) as [->|]; [lra|]. apply IH; [exact H'|cbn; lra|lia].
Qed.
Lemma sumR_add n (f g : nat -> R) : csum (K := RR) n (fun i => (f i + g i)%R) = (csum (K := RR) n f + csum (K := RR) n g)%R.
Proof. apply (csum_add RR_laws). Qed.
Lemma sumR_mul n (a : R) (f : nat -> R) : csum (K := RR) n (fun i => (a * f i)%R) = (a * csum (K := RR) n f)%R.
Proof. apply (csum_mul_l RR_laws). Qed.
Lemma sumR_ext n (f g : nat -> R) : (forall i, i < n -> f i = g i) -> csum (K := RR) n f = csum (K := RR) n g.
Proof. apply (csum_ext (K := RR)). Qed.
Lemma sumR_swap n m (f : nat -> nat -> R) : csum (K := RR) n (fun i => csum (K := RR) m (fun j => f i j)) = csum (K := RR) m (fun j => csum (K := RR) n (fun i => f i j)).
Proof. apply (csum_swap RR_laws). Qed.

(* distances *)
Lemma dist_nonneg d a b : (0 <= distance d a b)%R.
Proof. apply sqrt_pos. Qed.
Lemma dist_sq d a b : (distance d a b * distance d a b)%R = csum (K := RR) d (fun k => ((a k - b k) * (a k - b k))%R).
Proof. apply sqrt_def. apply sum_nonneg. intros k _. exact (Rle_0_sqr _). Qed.
Lemma dist_sym d a b : distance d a b = distance d b a.
Proof. unfold distance. f_equal. apply sumR_ext. intros k _. ring. Qed.
Lemma dist_zero d a b : distance d a b = 0%R <-> forall k, k < d -> a k = b k.
Proof.
  split.
  - intros H k Hk. pose proof (dist_sq d a b) as E. rewrite H in E. symmetry in E. assert (E' : csum (K := RR) d (fun k => ((a k - b k) * (a k - b k))%R) = 0%R) by lra.
    pose proof (sum_zero d _ (fun i _ => Rle_0_sqr (a i - b i)) E' k Hk) as Z. apply (Rsqr_0_uniq (a k - b k)%R) in Z. lra.
  - intros H. unfold distance. rewrite (sumR_ext d _ (fun _ => 0%R)); [rewrite (csum_0 RR_laws); apply sqrt_0|]. intros k Hk. rewrite H by exact Hk. ring.
Qed.
Lemma cauchy n (f g : nat -> R) : (csum (K := RR) n (fun k => (f k * g k)%R) * csum (K := RR) n (fun k => (f k * g k)%R) <= csum (K := RR) n (fun k => (f k * f k)%R) * csum (K := RR) n (fun k => (g k * g k)%R))%R.
Proof.
  set (A := csum (K := RR) n (fun k => (f k * f k)%R)). set (B := csum (K := RR) n (fun k => (g k * g k)%R)). set (C := csum (K := RR) n (fun k => (f k * g k)%R)).
  assert (Q : forall t, (0 <= A + 2 * t * C + t * t * B)%R).
  { intros t. replace (A + 2 * t * C + t * t * B)%R with (csum (K := RR) n (fun k => ((f k + t * g k) * (f k + t * g k))%R)); [apply sum_nonneg; intros; exact (Rle_0_sqr _)|].
    unfold A, B, C. rewrite <- !sumR_mul, <- !sumR_add. apply sumR_ext. intros k _. ring. }
  assert (HB : (0 <= B)%R) by (apply sum_nonneg; intros; exact (Rle_0_sqr _)). assert (HA : (0 <= A)%R) by (apply sum_nonneg; intros; exact (Rle_0_sqr _)).
  destruct (Req_dec B 0) as [E|E].
  - assert (Z : C = 0%R). { unfold C. rewrite (sumR_ext n _ (fun _ => 0%R)); [apply (csum_0 RR_laws)|]. intros k Hk. pose proof (sum_zero n _ (fun i _ => Rle_0_sqr (g i)) E k Hk) as Zk. apply (Rsqr_0_uniq (g k)) in Zk. rewrite Zk. ring. }
    rewrite Z, E. lra.
  - specialize (Q (- C / B)%R). replace (A + 2 * (- C / B) * C + - C / B * (- C / B) * B)%R with (A - C * C / B)%R in Q by (field; exact E).
    assert (X : (0 <= (A - C * C / B) * B)%R) by (apply Rmult_le_pos; lra). replace ((A - C * C / B) * B)%R with (A * B - C * C)%R in X by (field; exact E). lra.
Qed.
Lemma dist_triangle d a b c : (distance d a c <= distance d a b + distance d b c)%R.
Proof.
  pose proof (dist_nonneg d a b) as P1. pose proof (dist_nonneg d b c) as P2. pose proof (dist_nonneg d a c) as P3.
  apply Rsqr_incr_0_var; [|lra]. unfold Rsqr. rewrite dist_sq.
  assert (E : csum (K := RR) d (fun k => ((a k - c k) * (a k - c k))%R) = (distance d a b * distance d a b + 2 * csum (K := RR) d (fun k => ((a k - b k) * (b k - c k))%R) + distance d b c * distance d b c)%R).
  { rewrite !dist_sq, <- sumR_mul, <- !sumR_add. apply sumR_ext. intros k _. ring. }
  rewrite E. set (X := csum (K := RR) d (fun k => ((a k - b k) * (b k - c k))%R)).
  assert (Y : (X <= distance d a b * distance d b c)%R).
  { apply Rsqr_incr_0_var; [|nra]. unfold Rsqr. pose proof (cauchy d (fun k => (a k - b k)%R) (fun k => (b k - c k)%R)) as Cs. cbv beta in Cs. rewrite <- !dist_sq in Cs. fold X in Cs. nra. }
  nra.
Qed.

(* positivity *)
Definition inner (d : nat) (a b : arr R) : R := csum (K := RR) d (fun k => (a k * b k)%R).
Definition psd (n : nat) (k : arr2 R) : Prop := forall a, (0 <= form n k a)%R.
Lemma form_ext n k k' a : (forall i j, i < n -> j < n -> k i j = k' i j) -> form n k a = form n k' a.
Proof. intros H. unfold form. apply sumR_ext. intros i Hi. apply sumR_ext. intros j Hj. now rewrite H. Qed.
Lemma form_add n k k' a : form n (fun i j => (k i j + k' i j)%R) a = (form n k a + form n k' a)%R.
Proof. unfold form. rewrite <- sumR_add. apply sumR_ext. intros i _. rewrite <- sumR_add. apply sumR_ext. intros j _. ring. Qed.
Lemma form_scale n (c : R) k a : form n (fun i j => (c * k i j)%R) a = (c * form n k a)%R.
Proof. unfold form. rewrite <- sumR_mul. apply sumR_ext. intros i _. rewrite <- sumR_mul. apply sumR_ext. intros j _. ring. Qed.
Lemma form_conj n (u : arr R) k a : form n (fun i j => (u i * u j * k i j)%R) a = form n k (fun i => (a i * u i)%R).
Proof. unfold form. apply sumR_ext. intros i _. apply sumR_ext. intros j _. ring. Qed.
Lemma psd_one n : psd n (fun _ _ => 1%R).
Proof.
  intros a. unfold form. replace (csum (K := RR) n (fun i => csum (K := RR) n (fun j => (a i * a j * 1)%R))) with (csum (K := RR) n a * csum (K := RR) n a)%R; [nra|].
  rewrite <- sumR_mul. rewrite (sumR_ext n (fun i => csum (K := RR) n (fun j => (a i * a j * 1)%R)) (fun i => (csum (K := RR) n a * a i)%R)); [reflexivity|]. intros i _.
  rewrite Rmult_comm, <- sumR_mul. apply sumR_ext. intros j _. ring.
Qed.
Lemma psd_sum n d (k : nat -> arr2 R) : (forall m, m < d -> psd n (k m)) -> psd n (fun i j => csum (K := RR) d (fun m => k m i j)).
Proof.
  induction d as [|d IH]; intros H a; cbn [csum].
  - unfold form. rewrite (sumR_ext n _ (fun _ => 0%R)); [rewrite (csum_0 RR_laws); apply Rle_refl|]. intros i _. rewrite (sumR_ext n _ (fun _ => 0%R)); [apply (csum_0 RR_laws)|]. intros j _. cbn. ring.
  - change (0 <= form n (fun i j => (csum (K := RR) d (fun m => k m i j) + k d i j)%R) a)%R. rewrite form_add. specialize (IH (fun m Hm => H m (Nat.lt_lt_succ_r _ _ Hm)) a). specialize (H d (Nat.lt_succ_diag_r d) a). lra.
Qed.
Lemma psd_inner n d (x : arr2 R) k : psd n k -> psd n (fun i j => (inner d (x i) (x j) * k i j)%R).
Proof.
  intros H a. rewrite (form_ext n _ (fun i j => csum (K := RR) d (fun m => (x i m * x j m * k i j)%R))).
  - apply psd_sum. intros m _ b. rewrite (form_conj n (fun i => x i m)). apply H.
  - intros i j _ _. unfold inner. rewrite Rmult_comm, <- sumR_mul. apply sumR_ext. intros m _. ring.
Qed.
Lemma psd_power n d x m : psd n (fun i j => (inner d (x i) (x j) ^ m)%R).
Proof. induction m as [|m IH]; [apply psd_one|]. exact (psd_inner n d x _ IH). Qed.
Lemma form_limit n (k : nat -> arr2 R) k' a : (forall i j, i < n -> j < n -> Un_cv (fun m => k m i j) (k' i j)) -> Un_cv (fun m => form n (k m) a) (form n k' a).
Proof.
  assert (X : forall N (f : nat -> nat -> R) g, (forall i, i < N -> Un_cv (fun m => f m i) (g i)) -> Un_cv (fun m => csum (K := RR) N (f m)) (csum (K := RR) N g)).
  { induction N as [|N IH]; intros f g H; cbn [csum].
    - intros e He. exists 0. intros m _. unfold R_dist. cbn. rewrite Rminus_diag_eq by reflexivity. now rewrite Rabs_R0.
    - apply CV_plus; [apply IH; intros i Hi; apply H; lia|apply H; lia]. }
  intros H. unfold form. apply X. intros i Hi. apply X. intros j Hj. apply (CV_mult (fun _ => (a i * a j)%R) (fun m => k m i j)); [|now apply H].
  intros e He. exists 0. intros m _. unfold R_dist. rewrite Rminus_diag_eq by reflexivity. now rewrite Rabs_R0.
Qed.
Lemma psd_exp n d x : psd n (fun i j => exp (inner d (x i) (x j))).
Proof.
  intros a. set (S := fun m i j => sum_f_R0 (fun k => (/ INR (fact k) * inner d (x i) (x j) ^ k)%R) m).
  assert (L : Un_cv (fun m => form n (S m) a) (form n (fun i j => exp (inner d (x i) (x j))) a)).
  { apply form_limit. intros i j _ _. unfold exp. destruct (exist_exp (inner d (x i) (x j))) as [l Hl]. cbn. exact Hl. }
  assert (P : forall m, (0 <= form n (S m) a)%R).
  { induction m as [|m IH].
    - unfold S. cbn [sum_f_R0]. rewrite (form_scale n _ (fun i j => (inner d (x i) (x j) ^ 0)%R)). apply Rmult_le_pos; [left; apply Rinv_0_lt_compat, INR_fact_lt_0|apply psd_power].
    - change (S (Datatypes.S m)) with (fun i j => (S m i j + / INR (fact (Datatypes.S m)) * inner d (x i) (x j) ^ (Datatypes.S m))%R). rewrite form_add. rewrite (form_scale n _ (fun i j => (inner d (x i) (x j) ^ (Datatypes.S m))%R)).
      apply Rplus_le_le_0_compat; [exact IH|]. apply Rmult_le_pos; [left; apply Rinv_0_lt_compat, INR_fact_lt_0|apply psd_power]. }
  destruct (Rle_lt_dec 0 (form n (fun i j => exp (inner d (x i) (x j))) a)) as [|Neg]; [assumption|exfalso].
  destruct (L (- form n (fun i j => exp (inner d (x i) (x j))) a)%R ltac:(lra)) as (m & Hm). specialize (Hm m (le_n _)). specialize (P m). unfold R_dist in Hm. apply Rabs_def2 in Hm. lra.
Qed.
Lemma psd_gauss n d (x : arr2 R) s l : l <> 0%R -> psd n (fun i j => (s * s * exp (- (distance d (x i) (x j) * distance d (x i) (x j)) / (2 * (l * l))))%R).
Proof.
  intros Hl a. rewrite (form_scale n (s * s)%R). apply Rmult_le_pos; [nra|].
  set (y := fun i k => (x i k / l)%R). set (u := fun i => exp (- inner d (y i) (y i) / 2)).
  rewrite (form_ext n _ (fun i j => (u i * u j * exp (inner d (y i) (y j)))%R)).
  - rewrite (form_conj n u). apply psd_exp.
  - intros i j _ _. unfold u. rewrite <- !exp_plus. f_equal. rewrite dist_sq.
    assert (E : csum (K := RR) d (fun k => ((x i k - x j k) * (x i k - x j k))%R) = (l * l * (inner d (y i) (y i) + inner d (y j) (y j) + (-2) * inner d (y i) (y j)))%R).
    { unfold inner. rewrite <- (sumR_mul d (-2)), <- !sumR_add, <- sumR_mul. apply sumR_ext. intros k _. unfold y. field. exact Hl. }
    rewrite E. field. exact Hl.
Qed.

(* the spectrum *)
Lemma shifted n d i : i < n -> fftshift n (fftfreq n d) i = ((INR i - INR (n / 2)) / (INR n * d))%R.
Proof.
  intros Hi. unfold fftshift, fftfreq. pose proof (Nat.div_mod n 2 ltac:(lia)) as D. pose proof (Nat.mod_upper_bound n 2 ltac:(lia)) as B.
  assert (D' : (n - 1) / 2 + 1 = n - n / 2). { destruct (Nat.eq_dec (n mod 2) 0) as [E|E]; [assert (F : (n - 1) / 2 = n / 2 - 1) by (symmetry; apply (Nat.div_unique (n - 1) 2 (n / 2 - 1) 1); lia); lia|assert (F : (n - 1) / 2 = n / 2) by (symmetry; apply (Nat.div_unique (n - 1) 2 (n / 2) 0); lia); lia]. }
  rewrite D'. f_equal. set (h := n / 2) in *. assert (Hh : h <= n) by lia.
  destruct (Nat.lt_ge_cases i h) as [L|G].
  - rewrite Nat.mod_small by lia. destruct (Nat.ltb_spec (i + (n - h)) (n - h)); [lia|]. rewrite plus_INR, minus_INR by exact Hh. ring.
  - replace (i + (n - h)) with ((i - h) + 1 * n) by lia. rewrite Nat.mod_add by lia. rewrite Nat.mod_small by lia. destruct (Nat.ltb_spec (i - h) (n - h)); [|lia]. now rewrite minus_INR by exact G.
Qed.
Lemma any_false n f : any n f = false <-> forall i, i < n -> f i = false.
Proof.
  unfold any. split.
  - intros H i Hi. destruct (f i) eqn:E; [|reflexivity]. rewrite <- H. symmetry. apply existsb_exists. exists i. split; [apply in_seq; lia|exact E].
  - intros H. destruct (existsb f (seq 0 n)) eqn:E; [|reflexivity]. apply existsb_exists in E as (i & Hi & E). apply in_seq in Hi. rewrite H in E by lia. discriminate.
Qed.
Lemma Rneqb_false a b : Rneqb a b = false <-> a = b.
Proof. unfold Rneqb. destruct (Req_EM_T a b); split; congruence. Qed.
Lemma spectrum_run N x xp s l : 2 <= N -> (forall i, i < N -> x i 0 = xp i) -> regular N x (x 1%nat 0%nat - x 0%nat 0%nat)%R ->
  exists out, power_spectrum (P2 N 1 x) xp s l = Ok (N, out) /\
    forall i, i < N -> out i = (sqrt (2 * PI * l) * (s * s) * exp (- (l * l) * (((INR i - INR (N / 2)) / (INR N * (x 1%nat 0%nat - x 0%nat 0%nat))) * ((INR i - INR (N / 2)) / (INR N * (x 1%nat 0%nat - x 0%nat 0%nat)))) / 2))%R.
Proof.
  intros HN Hx Hr. unfold power_spectrum. cbn [Nat.eqb negb]. rewrite (proj2 (any_false N _)) by (intros i Hi; apply Rneqb_false; now apply Hx).
  destruct (Nat.ltb_spec N 2); [lia|]. rewrite (proj2 (any_false (N - 1) _)) by (intros i Hi; apply Rneqb_false; apply Hr; lia). eexists. split; [reflexivity|]. intros i Hi. cbv beta. now rewrite shifted by exact Hi.
Qed.
Lemma spectrum_errors N D x xp s l : (D <> 1 -> power_spectrum (P2 N D x) xp s l = Raise TypeError) /\
  (D = 1 -> (exists i, i < N /\ x i 0 <> xp i) -> power_spectrum (P2 N D x) xp s l = Raise TypeError) /\
  (D = 1 -> (forall i, i < N -> x i 0 = xp i) -> N < 2 -> power_spectrum (P2 N D x) xp s l = Raise IndexError) /\
  (D = 1 -> 2 <= N -> ~ regular N x (x 1%nat 0%nat - x 0%nat 0%nat)%R -> power_spectrum (P2 N D x) xp s l = Raise TypeError).
Proof.
  unfold power_spectrum. split; [intros H; now rewrite (proj2 (Nat.eqb_neq D 1) H)|]. split; [|split].
  - intros -> (i & Hi & Ne). cbn [Nat.eqb negb]. destruct (any N (fun i => Rneqb (x i 0) (xp i))) eqn:E; [reflexivity|exfalso]. apply Ne. apply Rneqb_false. now apply (proj1 (any_false N _) E).
  - intros -> H HN. cbn [Nat.eqb negb]. rewrite (proj2 (any_false N _)) by (intros i Hi; apply Rneqb_false; now apply H). destruct (Nat.ltb_spec N 2); [reflexivity|lia].
  - intros -> HN Hr. cbn [Nat.eqb negb]. destruct (any N (fun i => Rneqb (x i 0) (xp i))); [reflexivity|]. destruct (Nat.ltb_spec N 2); [lia|].
    destruct (any (N - 1) _) eqn:E; [reflexivity|exfalso]. apply Hr. intros i Hi. apply Rneqb_false. apply (proj1 (any_false (N - 1) _) E). lia.
Qed.
Lemma spectrum N x xp s l : 2 <= N -> (0 < l)%R -> s <> 0%R -> (forall i, i < N -> x i 0 = xp i) -> regular N x (x 1%nat 0%nat - x 0%nat 0%nat)%R ->
  exists out, power_spectrum (P2 N 1 x) xp s l = Ok (N, out) /\
    (forall i, i < N -> let f := ((INR i - INR (N / 2)) / (INR N * (x 1%nat 0%nat - x 0%nat 0%nat)))%R in out i = (sqrt (2 * PI * l) * (s * s) * exp (- (l * l) * (f * f) / 2))%R) /\
    (forall i, i < N -> (0 < out i <= out (N / 2)%nat)%R) /\ (forall k, k <= N / 2 -> N / 2 + k < N -> out (N / 2 + k) = out (N / 2 - k)).
Proof.
  intros HN Hl Hs Hx Hr. destruct (spectrum_run N x xp s l HN Hx Hr) as (out & E & V). exists out. split; [exact E|]. split; [exact V|].
  assert (Hh : N / 2 < N) by (apply Nat.div_lt; lia). assert (A : (0 < sqrt (2 * PI * l) * (s * s))%R). { apply Rmult_lt_0_compat; [apply sqrt_lt_R0; pose proof PI_RGT_0; nra|apply Rsqr_pos_lt in Hs; exact Hs]. }
  split.
  - intros i Hi. rewrite (V i Hi), (V _ Hh). set (A0 := (sqrt (2 * PI * l) * (s * s))%R) in *. replace ((INR (N / 2) - INR (N / 2)) / (INR N * (x 1%nat 0%nat - x 0%nat 0%nat)))%R with 0%R by (unfold Rdiv; ring). rewrite (Rmult_0_l 0).
    set (f := ((INR i - INR (N / 2)) / (INR N * (x 1%nat 0%nat - x 0%nat 0%nat)))%R). pose proof (exp_pos (- (l * l) * (f * f) / 2)) as P. split; [now apply Rmult_lt_0_compat|].
    apply Rmult_le_compat_l; [lra|]. assert (L : (- (l * l) * (f * f) / 2 <= - (l * l) * 0 / 2)%R). { pose proof (Rle_0_sqr (l * f)). unfold Rsqr in H. lra. }
    destruct (Rle_lt_or_eq_dec _ _ L) as [Lt|Eq]; [left; now apply exp_increasing|rewrite Eq; apply Rle_refl].
  - intros k Hk Hk2. rewrite !V by lia. rewrite plus_INR, minus_INR by exact Hk. do 2 f_equal. unfold Rdiv. ring.
Qed.
