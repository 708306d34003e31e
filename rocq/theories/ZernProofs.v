(* Proofs for C85: indices and radial polynomials *)
From Coq Require Import Reals Lra.
From Verif Require Import Prelude PreludeFacts LoopFacts CRing CplxR ZernModel ZernSpec.
Close Scope R_scope. Open Scope nat_scope.

(* --- the index --- *)
Fixpoint tri (n : nat) : nat := match n with O => O | S n => tri n + S n end.
Lemma noll_loop_spec fuel : forall n j1, j1 <= fuel -> exists n' j1', noll_loop fuel n j1 = (n', j1') /\ tri n + j1 = tri n' + j1' /\ j1' <= n'.
Proof.
  induction fuel as [|fuel IH]; intros n j1 H; cbn [noll_loop].
  - exists n, j1. repeat split. lia.
  - destruct (Nat.ltb_spec n j1) as [L|L].
    + destruct (IH (n + 1) (j1 - (n + 1))) as (n' & j1' & E & T & B); [lia|]. exists n', j1'. split; auto. split; auto.
      rewrite <- T. rewrite Nat.add_1_r. cbn [tri]. lia.
    + exists n, j1. repeat split. lia.
Qed.
Lemma tri_mono n n' : n < n' -> tri n + n < tri n'.
Proof. induction 1; cbn [tri]; lia. Qed.
Lemma tri_unique n j n' j' : tri n + j = tri n' + j' -> j <= n -> j' <= n' -> n = n' /\ j = j'.
Proof.
  intros E H H'. destruct (Nat.lt_trichotomy n n') as [L|[->|L]]; [pose proof (tri_mono n n' L); lia|lia|pose proof (tri_mono n' n L); lia].
Qed.
Definition order_of (j n j1 : nat) : Z := ((if Nat.even (j + 1) then 1 else -1) * Z.of_nat (n mod 2 + 2 * ((j1 + (n + 1) mod 2) / 2)))%Z.
Lemma noll_spec j : exists n j1, noll j = (n, order_of j n j1) /\ j = tri n + j1 /\ j1 <= n.
Proof.
  unfold noll. destruct (noll_loop_spec (j + 1) 0 (j + 1 - 1)) as (n & j1 & E & T & B); [lia|]. rewrite E. exists n, j1. split; [reflexivity|]. cbn [tri] in T. lia.
Qed.
Lemma noll_unique j n j1 : j = tri n + j1 -> j1 <= n -> noll j = (n, order_of j n j1).
Proof.
  intros E H. destruct (noll_spec j) as (n' & j1' & E' & T & B). destruct (tri_unique n j1 n' j1') as [-> ->]; auto. lia.
Qed.
(* the absolute order, by parity of the degree *)
Lemma abs_order_odd h j1 : ((2 * h + 1) mod 2 + 2 * ((j1 + (2 * h + 1 + 1) mod 2) / 2) = 1 + 2 * (j1 / 2))%nat.
Proof.
  replace ((2 * h + 1) mod 2) with 1 by (rewrite Nat.add_comm, Nat.mul_comm, Nat.mod_add by lia; reflexivity).
  replace ((2 * h + 1 + 1) mod 2) with 0. 2:{ replace (2 * h + 1 + 1) with (0 + (h + 1) * 2) by lia. rewrite Nat.mod_add by lia. reflexivity. }
  now rewrite Nat.add_0_r.
Qed.
Lemma abs_order_even h j1 : ((2 * h) mod 2 + 2 * ((j1 + (2 * h + 1) mod 2) / 2) = 2 * ((j1 + 1) / 2))%nat.
Proof.
  replace ((2 * h) mod 2) with 0 by (rewrite Nat.mul_comm, Nat.mod_mul by lia; reflexivity).
  replace ((2 * h + 1) mod 2) with 1 by (rewrite Nat.add_comm, Nat.mul_comm, Nat.mod_add by lia; reflexivity). reflexivity.
Qed.
Lemma half_bounds x : 2 * (x / 2) <= x < 2 * (x / 2) + 2.
Proof. pose proof (Nat.div_mod x 2). pose proof (Nat.mod_upper_bound x 2). lia. Qed.
Lemma even_or_odd n : exists h, n = 2 * h \/ n = 2 * h + 1.
Proof. destruct (Nat.Even_or_Odd n) as [[h H]|[h H]]; exists h; lia. Qed.
Lemma even_add_b a b : Nat.even (a + b) = Bool.eqb (Nat.even a) (Nat.even b).
Proof. apply Nat.even_add. Qed.

Lemma noll_valid j n m : noll j = (n, m) -> zernike_order n m.
Proof.
  intros E. destruct (noll_spec j) as (n' & j1 & E' & _ & B). rewrite E' in E. injection E as -> <-. unfold order_of, zernike_order.
  destruct (even_or_odd n) as (h & [-> | ->]).
  - rewrite abs_order_even. pose proof (half_bounds (j1 + 1)). set (c := (j1 + 1) / 2) in *.
    destruct (Nat.even (j + 1)); split; try lia; [exists (Z.of_nat h - Z.of_nat c)%Z|exists (Z.of_nat h + Z.of_nat c)%Z]; lia.
  - rewrite abs_order_odd. pose proof (half_bounds j1). set (c := j1 / 2) in *.
    destruct (Nat.even (j + 1)); split; try lia; [exists (Z.of_nat h - Z.of_nat c)%Z|exists (Z.of_nat h + Z.of_nat c + 1)%Z]; lia.
Qed.
Lemma even_par a b : Nat.even a = Nat.even b -> exists c, a = b + 2 * c \/ b = a + 2 * c.
Proof.
  intros H. destruct (even_or_odd a) as (x & [-> | ->]), (even_or_odd b) as (y & [-> | ->]).
  - destruct (le_dec x y); [exists (y - x); lia|exists (x - y); lia].
  - rewrite Nat.add_comm, Nat.even_add, !Nat.even_mul in H. cbn in H. discriminate.
  - rewrite (Nat.add_comm (2 * x)), Nat.even_add, !Nat.even_mul in H. cbn in H. discriminate.
  - destruct (le_dec x y); [exists (y - x); lia|exists (x - y); lia].
Qed.
Lemma noll_injective j j' : noll j = noll j' -> j = j'.
Proof.
  intros E. destruct (noll_spec j) as (n & j1 & E1 & T1 & B1). destruct (noll_spec j') as (n' & j1' & E2 & T2 & B2).
  rewrite E1, E2 in E. injection E as En Em. subst n'. unfold order_of in Em.
  assert (P : Nat.even (j + 1) = Nat.even (j' + 1) -> exists c, j1 = j1' + 2 * c \/ j1' = j1 + 2 * c).
  { intros H. apply even_par in H as (c & H). exists c. lia. }
  destruct (even_or_odd n) as (h & [-> | ->]).
  - rewrite !abs_order_even in Em. pose proof (half_bounds (j1 + 1)). pose proof (half_bounds (j1' + 1)).
    set (c := (j1 + 1) / 2) in *. set (c' := (j1' + 1) / 2) in *.
    destruct (Nat.even (j + 1)) eqn:A, (Nat.even (j' + 1)) eqn:A'; [| | |]; try (destruct P as (d & P); [reflexivity|]; lia); lia.
  - rewrite !abs_order_odd in Em. pose proof (half_bounds j1). pose proof (half_bounds j1').
    set (c := j1 / 2) in *. set (c' := j1' / 2) in *.
    destruct (Nat.even (j + 1)) eqn:A, (Nat.even (j' + 1)) eqn:A'; try (destruct P as (d & P); [reflexivity|]; lia); lia.
Qed.
Lemma half_even a : (2 * a) / 2 = a. Proof. rewrite Nat.mul_comm. now apply Nat.div_mul. Qed.
Lemma half_odd a : (2 * a + 1) / 2 = a. Proof. pose proof (half_bounds (2 * a + 1)). lia. Qed.
Lemma noll_surjective n m : zernike_order n m -> exists j, noll j = (n, m).
Proof.
  intros (B & h2 & P).
  assert (F : forall j1, j1 <= n -> order_of (tri n + j1) n j1 = m -> exists j, noll j = (n, m)).
  { intros j1 H E. exists (tri n + j1). rewrite (noll_unique _ n j1) by auto. now rewrite E. }
  assert (S2 : forall x, Nat.even (tri n + (x + 1) + 1) = negb (Nat.even (tri n + x + 1))).
  { intros x. replace (tri n + (x + 1) + 1) with (S (tri n + x + 1)) by lia. rewrite Nat.even_succ. unfold Nat.odd. reflexivity. }
  destruct (even_or_odd n) as (h & [Hn | Hn]).
  - (* |m| = 2c *)
    assert (exists c, Z.abs m = (2 * Z.of_nat c)%Z) as (c & Hc). { exists (Z.to_nat (Z.abs (Z.of_nat h - h2))). lia. }
    destruct c as [|c].
    + apply (F 0); [lia|]. unfold order_of. rewrite Hn at 2 3. rewrite abs_order_even. cbn. destruct (Nat.even _); lia.
    + assert (V : forall x, x = 2 * c + 1 \/ x = 2 * c + 1 + 1 -> order_of (tri n + x) n x = ((if Nat.even (tri n + x + 1) then 1 else -1) * Z.of_nat (2 * S c))%Z).
      { intros x Hx. unfold order_of. rewrite Hn at 2 3. rewrite abs_order_even. do 3 f_equal. pose proof (half_bounds (x + 1)). lia. }
      destruct (Nat.even (tri n + (2 * c + 1) + 1)) eqn:E.
      * destruct (Z_le_dec 0 m); [apply (F (2 * c + 1)); [lia|rewrite V by auto; rewrite E; lia]|].
        apply (F (2 * c + 1 + 1)); [lia|]. rewrite V by auto. rewrite S2, E. cbn [negb]. lia.
      * destruct (Z_le_dec 0 m); [|apply (F (2 * c + 1)); [lia|rewrite V by auto; rewrite E; lia]].
        apply (F (2 * c + 1 + 1)); [lia|]. rewrite V by auto. rewrite S2, E. cbn [negb]. lia.
  - assert (exists c, Z.abs m = (2 * Z.of_nat c + 1)%Z) as (c & Hc).
    { destruct (Z_le_dec 0 m); [exists (Z.to_nat (Z.of_nat h - h2))|exists (Z.to_nat (h2 - Z.of_nat h - 1))]; lia. }
    assert (V : forall x, x = 2 * c \/ x = 2 * c + 1 -> order_of (tri n + x) n x = ((if Nat.even (tri n + x + 1) then 1 else -1) * Z.of_nat (2 * c + 1))%Z).
    { intros x Hx. unfold order_of. rewrite Hn at 2 3. rewrite abs_order_odd. do 2 f_equal. pose proof (half_bounds x). lia. }
    destruct (Nat.even (tri n + 2 * c + 1)) eqn:E.
    * destruct (Z_le_dec 0 m); [apply (F (2 * c)); [lia|rewrite V by auto; rewrite E; lia]|].
      apply (F (2 * c + 1)); [lia|]. rewrite V by auto. rewrite S2, E. cbn [negb]. lia.
    * destruct (Z_le_dec 0 m); [|apply (F (2 * c)); [lia|rewrite V by auto; rewrite E; lia]].
      apply (F (2 * c + 1)); [lia|]. rewrite V by auto. rewrite S2, E. cbn [negb]. lia.
Qed.
Lemma noll_ordered j j' n m n' m' : noll j = (n, m) -> noll j' = (n', m') -> j < j' -> n < n' \/ (n = n' /\ (Z.abs m <= Z.abs m')%Z).
Proof.
  intros E E' L. destruct (noll_spec j) as (n1 & j1 & E1 & T1 & B1). destruct (noll_spec j') as (n2 & j2 & E2 & T2 & B2).
  rewrite E1 in E. rewrite E2 in E'. injection E as -> <-. injection E' as -> <-.
  destruct (Nat.lt_trichotomy n n') as [H|[->|H]]; [auto| |].
  - right. split; auto. unfold order_of.
    assert (A : forall b x, Z.abs ((if b : bool then 1 else -1) * Z.of_nat x) = Z.of_nat x) by (intros [] x; lia). rewrite !A.
    destruct (even_or_odd n') as (h & [-> | ->]); rewrite ?abs_order_even, ?abs_order_odd.
    + pose proof (Nat.div_le_mono (j1 + 1) (j2 + 1) 2). lia.
    + pose proof (Nat.div_le_mono j1 j2 2). lia.
  - pose proof (tri_mono n' n H). lia.
Qed.
Lemma noll_sign j n m : noll j = (n, m) -> (0 < m -> Nat.even (j + 1) = true)%Z /\ (m < 0 -> Nat.even (j + 1) = false)%Z.
Proof.
  intros E. destruct (noll_spec j) as (n1 & j1 & E1 & T1 & B1). rewrite E1 in E. injection E as -> <-. unfold order_of.
  destruct (Nat.even (j + 1)); split; auto; lia.
Qed.

(* --- factorials and binomials --- *)
Lemma fac_ok n : fac (Z.of_nat n) = Ok (Z.of_nat (fact n)).
Proof.
  unfold fac. replace (Z.of_nat n <? 0)%Z with false by (symmetry; apply Z.ltb_ge; lia).
  destruct n as [|n]; [reflexivity|]. replace (Z.of_nat (S n) =? 0)%Z with false by (symmetry; apply Z.eqb_neq; lia).
  f_equal. rewrite Nat2Z.id. generalize (S n). clear n. induction n as [|n IH]; [reflexivity|]. rewrite for_S, IH. cbn [fact]. lia.
Qed.
Lemma binom_over n : forall k, n < k -> binom n k = 0.
Proof. induction n as [|n IH]; intros [|k] H; cbn; try lia. rewrite !IH by lia. reflexivity. Qed.
Lemma binom_diag n : binom n n = 1.
Proof. induction n as [|n IH]; cbn; auto. rewrite IH, binom_over by lia. reflexivity. Qed.
Lemma binom_fact n : forall k, k <= n -> binom n k * (fact k * fact (n - k)) = fact n.
Proof.
  induction n as [|n IH]; intros [|k] H; try lia; [reflexivity|cbn; lia|].
  cbn [binom]. replace (S n - S k) with (n - k) by lia. destruct (Nat.eq_dec k n) as [->|E].
  - rewrite (binom_over n (S n)) by lia. rewrite binom_diag, Nat.sub_diag. cbn [fact]. lia.
  - pose proof (IH k ltac:(lia)) as A. pose proof (IH (S k) ltac:(lia)) as B.
    replace (n - k) with (S (n - S k)) in * by lia. cbn [fact] in *. nia.
Qed.
Lemma binom_0 n : binom n 0 = 1. Proof. destruct n; reflexivity. Qed.
Lemma INR_fact_pos n : (0 < INR (fact n))%R. Proof. apply INR_fact_lt_0. Qed.

Open Scope R_scope.
Lemma pre_fac_ok p q k : (k <= p <= q)%nat ->
  pre_fac (Z.of_nat k) (Z.of_nat (p + q)) (Z.of_nat (q - p)) = Ok ((-1) ^ k * INR (binom (p + q - k) k * binom (p + q - 2 * k) (p - k))).
Proof.
  intros H. unfold pre_fac.
  replace (Z.of_nat (p + q) - Z.of_nat k)%Z with (Z.of_nat (p + q - k)) by lia.
  replace ((Z.of_nat (p + q) + Z.of_nat (q - p)) / 2 - Z.of_nat k)%Z with (Z.of_nat (q - k)).
  2:{ replace (Z.of_nat (p + q) + Z.of_nat (q - p))%Z with (Z.of_nat q * 2)%Z by lia. rewrite Z.div_mul by lia. lia. }
  replace ((Z.of_nat (p + q) - Z.of_nat (q - p)) / 2 - Z.of_nat k)%Z with (Z.of_nat (p - k)).
  2:{ replace (Z.of_nat (p + q) - Z.of_nat (q - p))%Z with (Z.of_nat p * 2)%Z by lia. rewrite Z.div_mul by lia. lia. }
  rewrite !fac_ok. cbn [bind]. rewrite Nat2Z.id. f_equal. rewrite !mult_IZR, <- !INR_IZR_INZ.
  pose proof (binom_fact (p + q - k) k ltac:(lia)) as A. pose proof (binom_fact (p + q - 2 * k) (p - k) ltac:(lia)) as B.
  replace (p + q - k - k)%nat with (p + q - 2 * k)%nat in A by lia. replace (p + q - 2 * k - (p - k))%nat with (q - k)%nat in B by lia.
  pose proof (INR_fact_pos k). pose proof (INR_fact_pos (p - k)). pose proof (INR_fact_pos (q - k)). pose proof (INR_fact_pos (p + q - 2 * k)).
  apply (f_equal INR) in A. apply (f_equal INR) in B. rewrite !mult_INR in A, B. rewrite mult_INR.
  rewrite <- A. rewrite <- B. field. repeat split; lra.
Qed.
Lemma zernike_rad_ok n m rho : (m <= n)%nat -> (exists h, n - m = 2 * h)%nat -> zernike_rad (Z.of_nat m) (Z.of_nat n) rho = Ok (radial n m rho).
Proof.
  intros Hm (p & Hp). set (q := (n - p)%nat). assert (En : n = (p + q)%nat) by lia. assert (Em : m = (q - p)%nat) by lia. assert (Hpq : (p <= q)%nat) by lia.
  unfold zernike_rad. replace (_ || _ || _)%bool with false.
  2:{ symmetry. apply Bool.orb_false_iff. split; [apply Bool.orb_false_iff; split|]; apply Z.ltb_ge; lia. }
  assert (Ed : ((n - m) / 2 = p)%nat) by (rewrite Hp; apply half_even). unfold radial. rewrite Ed.
  replace (Z.to_nat ((Z.of_nat n - Z.of_nat m) / 2 + 1)) with (S p).
  2:{ replace (Z.of_nat n - Z.of_nat m)%Z with (Z.of_nat p * 2)%Z by lia. rewrite Z.div_mul by lia. lia. }
  rewrite (forM_pure (S p) _ (fun k acc => acc + (-1) ^ k * INR (binom (n - k) k * binom (n - 2 * k) (p - k)) * rho ^ (n - 2 * k))).
  - f_equal. rewrite (for_csum RR_laws (fun x : RR => x) (fun k => (-1) ^ k * INR (binom (n - k) k * binom (n - 2 * k) (p - k)) * rho ^ (n - 2 * k))).
    + cbn [cadd RR]. apply Rplus_0_l.
    + intros k acc _. reflexivity.
  - intros k acc Hk. rewrite En, Em. rewrite pre_fac_ok by lia. cbn [bind]. rewrite <- En.
    replace (Z.to_nat (Z.of_nat n - 2 * Z.of_nat k)) with (n - 2 * k)%nat by lia. reflexivity.
Qed.

(* --- value at the edge of the disc --- *)
Lemma binom_fact_R n k : (k <= n)%nat -> INR (binom n k) * (INR (fact k) * INR (fact (n - k))) = INR (fact n).
Proof. intros H. rewrite <- !mult_INR. f_equal. now apply binom_fact. Qed.
Lemma binom_exchange p q k : (k <= p <= q)%nat -> INR (binom (p + q - k) k * binom (p + q - 2 * k) (p - k)) = INR (binom p k) * INR (binom (p + q - k) p).
Proof.
  intros H. rewrite mult_INR.
  pose proof (binom_fact_R (p + q - k) k ltac:(lia)) as A. pose proof (binom_fact_R (p + q - 2 * k) (p - k) ltac:(lia)) as B.
  pose proof (binom_fact_R p k ltac:(lia)) as C. pose proof (binom_fact_R (p + q - k) p ltac:(lia)) as D.
  replace (p + q - k - k)%nat with (p + q - 2 * k)%nat in A by lia. replace (p + q - 2 * k - (p - k))%nat with (q - k)%nat in B by lia.
  replace (p + q - k - p)%nat with (q - k)%nat in D by lia.
  pose proof (INR_fact_pos k). pose proof (INR_fact_pos (p - k)). pose proof (INR_fact_pos (q - k)). pose proof (INR_fact_pos (p + q - 2 * k)). pose proof (INR_fact_pos p).
  set (x := INR (binom (p + q - k) k)) in *. set (y := INR (binom (p + q - 2 * k) (p - k))) in *. set (u := INR (binom p k)) in *. set (v := INR (binom (p + q - k) p)) in *.
  apply (Rmult_eq_reg_r (INR (fact k) * INR (fact (p - k)) * INR (fact (q - k)))).
  2:{ apply Rgt_not_eq. repeat apply Rmult_lt_0_compat; auto. }
  transitivity (INR (fact (p + q - k))).
  - rewrite <- A. rewrite <- B. ring.
  - rewrite <- D. rewrite <- C. ring.
Qed.
Definition alt (p r N : nat) : R := csum (K := RR) (S p) (fun k => (-1) ^ k * (INR (binom p k) * INR (binom (N - k) r))).
Lemma alt_step p r N : (p < N)%nat -> alt (S p) r N = alt p r N - alt p r (N - 1).
Proof.
  intros H. unfold alt.
  (* split C(p+1, k) = C(p, k) + C(p, k-1) *)
  transitivity (csum (K := RR) (S (S p)) (fun k => cadd (c := RR) ((-1) ^ k * (INR (binom p k) * INR (binom (N - k) r)))
     (match k with O => 0 | S k' => (-1) ^ k * (INR (binom p k') * INR (binom (N - k) r)) end))).
  { apply (csum_ext (K := RR)). intros [|k] Hk; cbn [cadd RR].
    - rewrite !binom_0. match goal with |- ?u = ?v => change (@eq R u v) end. ring.
    - cbn [binom]. rewrite plus_INR. match goal with |- ?u = ?v => change (@eq R u v) end. ring. }
  rewrite (csum_add RR_laws). cbn [csum]. rewrite (binom_over p (S p)) by lia. cbn [cadd RR].
  match goal with |- ?u = ?v => change (@eq R u v) end.
  replace ((-1) ^ S p * (INR 0 * INR (binom (N - S p) r))) with 0 by (cbn [INR]; ring). rewrite Rplus_0_r. unfold Rminus. f_equal.
  change (csum (K := RR) (S (S p)) (fun k => match k with O => 0 | S k' => (-1) ^ k * (INR (binom p k') * INR (binom (N - k) r)) end) = - (csum (K := RR) (S p) (fun k => (-1) ^ k * (INR (binom p k) * INR (binom (N - 1 - k) r))))).
  rewrite (csum_split RR_laws 1 (S p)). cbn [csum Nat.add]. cbn [cadd c0 RR]. rewrite !Rplus_0_l.
  enough (G : forall n, csum (K := RR) n (fun i => (-1) ^ S i * (INR (binom p i) * INR (binom (N - S i) r))) = - csum (K := RR) n (fun k => (-1) ^ k * (INR (binom p k) * INR (binom (N - 1 - k) r)))).
  { specialize (G (S p)). cbn [csum cadd RR] in G. exact G. }
  induction n as [|n IH]; cbn [csum]; cbn [cadd c0 RR]; [match goal with |- ?u = ?v => change (@eq R u v) end; ring|]. cbn [cadd RR] in IH.
  match goal with |- ?u = ?v => change (@eq R u v) end. rewrite IH. replace (N - S n)%nat with (N - 1 - n)%nat by lia. cbn [pow]. ring.
Qed.
Lemma binom_pascal n k : (0 < n)%nat -> INR (binom n (S k)) - INR (binom (n - 1) (S k)) = INR (binom (n - 1) k).
Proof. intros H. destruct n as [|n]; [lia|]. replace (S n - 1)%nat with n by lia. cbn [binom]. rewrite plus_INR. ring. Qed.
Lemma alt_value p : forall r N, (p <= N)%nat -> (p <= r)%nat -> alt p r N = INR (binom (N - p) (r - p)).
Proof.
  induction p as [|p IH]; intros r N HN Hr.
  - unfold alt. cbn [csum]. cbn [cadd c0 RR pow]. rewrite binom_0, !Nat.sub_0_r. cbn [INR].
    match goal with |- ?u = ?v => change (@eq R u v) end. ring.
  - rewrite alt_step by lia. rewrite !IH by lia. replace (N - 1 - p)%nat with (N - p - 1)%nat by lia.
    replace (r - p)%nat with (S (r - S p)) by lia. rewrite binom_pascal by lia. do 2 f_equal. lia.
Qed.
Lemma radial_edge n m : (m <= n)%nat -> (exists h, n - m = 2 * h)%nat -> radial n m 1 = 1.
Proof.
  intros Hm (p & Hp). set (q := (n - p)%nat). assert (En : n = (p + q)%nat) by lia. assert (Hpq : (p <= q)%nat) by lia.
  unfold radial. replace ((n - m) / 2)%nat with p by (rewrite Hp; symmetry; apply half_even).
  transitivity (alt p p n).
  - apply (csum_ext (K := RR)). intros k Hk. rewrite pow1, Rmult_1_r. rewrite En. rewrite binom_exchange by lia. reflexivity.
  - rewrite alt_value by lia. rewrite Nat.sub_diag, binom_0. reflexivity.
Qed.
