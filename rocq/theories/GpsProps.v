(* C74: distances, squared-exponential covariance and power spectrum *)
From Coq Require Import Reals Lra.
From Verif Require Import Prelude CRing CplxR GpsModel GpsSpec GpsProofs.
Close Scope R_scope.
Open Scope nat_scope.

(* arrays of points of the same dimension: the matrix of Euclidean distances *)
Theorem C74_distance : forall N Np D x xp, exists k, abs_diff (P2 N D x) (P2 Np D xp) = Ok (N, Np, k) /\ forall i j, k i j = distance D (x i) (xp j).
Proof. intros. unfold abs_diff. rewrite Nat.ltb_irrefl. eexists. split; reflexivity. Qed.
Print Assumptions C74_distance.
(* it is a metric *)
Theorem C74_metric : forall N D x k, abs_diff (P2 N D x) (P2 N D x) = Ok (N, N, k) -> forall h i j,
  (0 <= k i j)%R /\ k i j = k j i /\ k i i = 0%R /\ (k i j = 0%R <-> forall c, c < D -> x i c = x j c) /\ (k i j <= k i h + k h j)%R.
Proof.
  intros N D x k E h i j. unfold abs_diff in E. rewrite Nat.ltb_irrefl in E. injection E as <-.
  change ((0 <= distance D (x i) (x j))%R /\ distance D (x i) (x j) = distance D (x j) (x i) /\ distance D (x i) (x i) = 0%R /\ (distance D (x i) (x j) = 0%R <-> forall c, c < D -> x i c = x j c) /\ (distance D (x i) (x j) <= distance D (x i) (x h) + distance D (x h) (x j))%R).
  split; [apply dist_nonneg|]. split; [apply dist_sym|]. split; [now apply dist_zero|]. split; [apply dist_zero|apply dist_triangle].
Qed.
Print Assumptions C74_metric.
(* arrays not both of two dimensions are taken as lists of numbers *)
Theorem C74_numbers : forall n m x y, exists k, abs_diff (Pflat n x) (Pflat m y) = Ok (n, m, k) /\ forall i j, k i j = Rabs (x i - y j).
Proof.
  intros. eexists. split; [reflexivity|]. intros i j. cbv beta. cbn [csum flat]. rewrite <- sqrt_Rsqr_abs. f_equal. unfold Rsqr. cbn. ring.
Qed.
Print Assumptions C74_numbers.
(* the number of components is taken from the second argument: too few in the first is an error ... *)
Theorem C74_too_few : forall N Np D D' x xp, D < D' -> abs_diff (P2 N D x) (P2 Np D' xp) = Raise IndexError.
Proof. intros. unfold abs_diff. now rewrite (proj2 (Nat.ltb_lt D D')). Qed.
Print Assumptions C74_too_few.
(* ... but further components of the first are left out without a word: swapping the arguments does not always transpose *)
Theorem C74_too_many_refuted : exists x xp k, abs_diff (P2 1 2 x) (P2 1 1 xp) = Ok (1, 1, k) /\ k 0 0 = 0%R /\ x 0 1 <> 0%R /\ abs_diff (P2 1 1 xp) (P2 1 2 x) = Raise IndexError.
Proof.
  exists (fun _ c => INR c), (fun _ _ => 0%R). eexists. split; [reflexivity|]. split; [|split; [cbn; lra|reflexivity]].
  cbn. replace (0 + (0 - 0) * (0 - 0))%R with 0%R by ring. apply sqrt_0.
Qed.
Print Assumptions C74_too_many_refuted.
(* the covariance: sigma^2 exp(-d^2 / 2 l^2); in (0, sigma^2]; sigma^2 exactly for equal points; swapping the arguments transposes *)
Theorem C74_covariance : forall N Np D x xp s l, s <> 0%R -> l <> 0%R -> exists k kt, exponential_squared (P2 N D x) (P2 Np D xp) s l = Ok (N, Np, k) /\
  exponential_squared (P2 Np D xp) (P2 N D x) s l = Ok (Np, N, kt) /\
  forall i j, let d := distance D (x i) (xp j) in k i j = (s * s * exp (- (d * d) / (2 * (l * l))))%R /\ (0 < k i j <= s * s)%R /\ (k i j = (s * s)%R <-> d = 0%R) /\ kt j i = k i j.
Proof.
  intros N Np D x xp s l Hs Hl. unfold exponential_squared, abs_diff. rewrite Nat.ltb_irrefl. cbn [bind]. eexists. eexists. split; [reflexivity|]. split; [reflexivity|]. intros i j. cbv beta zeta.
  fold (distance D (x i) (xp j)). fold (distance D (xp j) (x i)). rewrite (dist_sym D (xp j) (x i)). set (d := distance D (x i) (xp j)). split; [reflexivity|].
  assert (S : (0 < s * s)%R) by (apply Rsqr_pos_lt in Hs; exact Hs). assert (L : (0 < 2 * (l * l))%R) by (apply Rsqr_pos_lt in Hl; unfold Rsqr in Hl; lra).
  assert (Hd : (0 <= d)%R) by apply dist_nonneg. assert (P : (0 < / (2 * (l * l)))%R) by now apply Rinv_0_lt_compat.
  set (e := (- (d * d) / (2 * (l * l)))%R). assert (He : (e <= 0)%R) by (unfold e, Rdiv; nra).
  assert (Z : e = 0%R <-> d = 0%R). { unfold e, Rdiv. split; [intros E; apply Rmult_integral in E as [E|E]; [nra|lra]|intros ->; ring]. }
  assert (B : (exp e <= 1)%R). { rewrite <- exp_0. destruct (Rle_lt_or_eq_dec _ _ He) as [Lt|Eq]; [left; now apply exp_increasing|rewrite Eq; apply Rle_refl]. }
  pose proof (exp_pos e) as Pe. split; [split; [nra|nra]|]. split; [|reflexivity]. rewrite <- Z. split.
  - intros E. apply exp_inv. rewrite exp_0. nra.
  - intros E. rewrite E, exp_0. ring.
Qed.
Print Assumptions C74_covariance.
(* the covariance of points with themselves is symmetric and positive semi-definite *)
Theorem C74_positive : forall N D x s l k, l <> 0%R -> exponential_squared (P2 N D x) (P2 N D x) s l = Ok (N, N, k) -> (forall i j, k i j = k j i) /\ forall a, (0 <= form N k a)%R.
Proof.
  intros N D x s l k Hl E. unfold exponential_squared, abs_diff in E. rewrite Nat.ltb_irrefl in E. cbn [bind] in E. injection E as <-.
  split; [|intros a; exact (psd_gauss N D x s l Hl a)]. intros i j. fold (distance D (x i) (x j)) (distance D (x j) (x i)). now rewrite dist_sym.
Qed.
Print Assumptions C74_positive.
(* farther is smaller *)
Theorem C74_decreasing : forall N Np D x xp s l k i j i' j', s <> 0%R -> l <> 0%R -> exponential_squared (P2 N D x) (P2 Np D xp) s l = Ok (N, Np, k) ->
  (distance D (x i) (xp j) < distance D (x i') (xp j'))%R -> (k i' j' < k i j)%R.
Proof.
  intros N Np D x xp s l k i j i' j' Hs Hl E. unfold exponential_squared, abs_diff in E. rewrite Nat.ltb_irrefl in E. cbn [bind] in E. injection E as <-.
  fold (distance D (x i) (xp j)) (distance D (x i') (xp j')). pose proof (dist_nonneg D (x i) (xp j)) as P. generalize dependent (distance D (x i) (xp j)). generalize (distance D (x i') (xp j')). intros d' d P H.
  apply Rmult_lt_compat_l; [apply Rsqr_pos_lt in Hs; exact Hs|]. apply exp_increasing. unfold Rdiv. apply Rmult_lt_compat_r; [apply Rinv_0_lt_compat; apply Rsqr_pos_lt in Hl; unfold Rsqr in Hl; lra|]. nra.
Qed.
Print Assumptions C74_decreasing.
(* the power spectrum of a regular grid of distinct points (for equal points the division is by zero): a Gaussian in the shifted frequencies (i - N/2) / (N delta), positive, largest and
   symmetric about zero frequency *)
Theorem C74_spectrum : forall N x xp s l, 2 <= N -> (0 < l)%R -> s <> 0%R -> (forall i, i < N -> x i 0 = xp i) -> x 1 0 <> x 0 0 -> regular N x (x 1%nat 0%nat - x 0%nat 0%nat)%R ->
  exists out, power_spectrum (P2 N 1 x) xp s l = Ok (N, out) /\
    (forall i, i < N -> let f := ((INR i - INR (N / 2)) / (INR N * (x 1%nat 0%nat - x 0%nat 0%nat)))%R in out i = (sqrt (2 * PI * l) * (s * s) * exp (- (l * l) * (f * f) / 2))%R) /\
    (forall i, i < N -> (0 < out i <= out (N / 2)%nat)%R) /\ (forall k, k <= N / 2 -> N / 2 + k < N -> out (N / 2 + k) = out (N / 2 - k)).
Proof. intros N x xp s l HN Hl Hs Hx _. exact (spectrum N x xp s l HN Hl Hs Hx). Qed.
Print Assumptions C74_spectrum.
(* errors of the spectrum; each of the three messages of the code ends as a TypeError *)
Theorem C74_spectrum_errors : forall N D x xp s l, (D <> 1 -> power_spectrum (P2 N D x) xp s l = Raise TypeError) /\
  (D = 1 -> (exists i, i < N /\ x i 0 <> xp i) -> power_spectrum (P2 N D x) xp s l = Raise TypeError) /\
  (D = 1 -> (forall i, i < N -> x i 0 = xp i) -> N < 2 -> power_spectrum (P2 N D x) xp s l = Raise IndexError) /\
  (D = 1 -> 2 <= N -> ~ regular N x (x 1%nat 0%nat - x 0%nat 0%nat)%R -> power_spectrum (P2 N D x) xp s l = Raise TypeError).
Proof. exact spectrum_errors. Qed.
Print Assumptions C74_spectrum_errors.

(* three points of the plane at the corners of a right triangle, and a regular grid of five points *)
Example C74_case : distance 2 (fun k => if Nat.eqb k 0 then 3 else 0)%R (fun k => if Nat.eqb k 0 then 0 else 4)%R = 5%R /\ regular 5 (fun i _ => (INR i / 2)%R) ((fun i _ => INR i / 2) 1%nat 0%nat - (fun i _ => INR i / 2) 0%nat 0%nat)%R.
Proof.
  split.
  - unfold distance. cbn. replace (0 + (3 - 0) * (3 - 0) + (0 - 4) * (0 - 4))%R with (5 * 5)%R by ring. apply sqrt_square. lra.
  - intros i _. rewrite S_INR. cbn [INR]. lra.
Qed.
(* a two-dimensional array and one of another number of dimensions: both are taken element by element *)
Theorem C74_mixed : forall n d x m y,
  (exists k, abs_diff (P2 n d x) (Pflat m y) = Ok (n * d, m, k) /\ forall i c j, c < d -> k (i * d + c) j = Rabs (x i c - y j)) /\
  (exists k, abs_diff (Pflat m y) (P2 n d x) = Ok (m, n * d, k) /\ forall i c j, c < d -> k j (i * d + c) = Rabs (y j - x i c)).
Proof.
  intros n d x m y. assert (Q : forall i c, c < d -> (i * d + c) / d = i /\ (i * d + c) mod d = c).
  { intros i c H. split; [rewrite Nat.div_add_l, (Nat.div_small c d) by lia; lia|]. rewrite Nat.add_comm, Nat.mod_add by lia. now apply Nat.mod_small. }
  split; (eexists; split; [reflexivity|]); intros i c j H; destruct (Q i c H) as [Q1 Q2]; cbv beta; cbn [csum flat]; rewrite Q1, Q2; rewrite <- sqrt_Rsqr_abs; f_equal; unfold Rsqr; cbn; ring.
Qed.
Print Assumptions C74_mixed.
Example C74_mixed_case : exists k, abs_diff (P2 2 2 (fun i c => INR (2 * i + c))) (Pflat 1 (fun _ => 1%R)) = Ok (4, 1, k) /\ k 3 0 = Rabs (INR 3 - 1).
Proof. destruct (proj1 (C74_mixed 2 2 (fun i c => INR (2 * i + c)) 1 (fun _ => 1%R))) as (k & E & H). exists k. split; [exact E|]. exact (H 1 1 0 ltac:(lia)). Qed.
