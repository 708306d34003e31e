(* Proofs about cubic splines. *)
From Coq Require Import QArith QArith.Qcanon Qcabs Lqa.
From Verif Require Import Prelude PreludeFacts LoopFacts QcArith QcFacts SplineModel SplineSpec.
Close Scope Q_scope. Close Scope Qc_scope.
Open Scope nat_scope.

Lemma qdiv_ok a b c : qdiv a b = Ok c -> b <> 0%Qc /\ c = (a / b)%Qc.
Proof.
  unfold qdiv, Qc_eq_bool. destruct (Qc_eq_dec b 0%Qc); [discriminate|]. intros E. injection E as <-. auto.
Qed.
Lemma qdiv_total a b : b <> 0%Qc -> qdiv a b = Ok (a / b)%Qc.
Proof. unfold qdiv, Qc_eq_bool. destruct (Qc_eq_dec b 0%Qc); [contradiction|reflexivity]. Qed.
Lemma qdiv_exn a b e : qdiv a b = Raise e -> e = ZeroDivision.
Proof. unfold qdiv. destruct (Qc_eq_bool b 0%Qc); congruence. Qed.
Lemma bindS {A B} (x : res A) (f : A -> res B) b : bind x f = Ok b -> exists a, x = Ok a /\ f a = Ok b.
Proof. destruct x; cbn; [eauto|discriminate]. Qed.

(* a loop that fills an array *)
Lemma fill {A} n (f : nat -> res A) body s s' :
  (forall i s, body i s = do! v <- f i; Ok (upd s i v)) -> forM n body s = Ok s' ->
  (forall i, i < n -> f i = Ok (s' i)) /\ (forall i, n <= i -> s' i = s i).
Proof.
  intros Hb. revert s'. induction n as [|n IH]; intros s' E; cbn [forM] in E.
  - injection E as <-. split; [lia|reflexivity].
  - apply bindS in E. destruct E as (s1 & E1 & E). rewrite Hb in E. apply bindS in E. destruct E as (v & Ev & E). injection E as <-.
    destruct (IH _ E1) as [A1 A2]. split.
    + intros i Hi. destruct (Nat.eq_dec i n) as [->|D]; [now rewrite upd_eq|]. rewrite upd_neq by auto. apply A1. lia.
    + intros i Hi. rewrite upd_neq by lia. apply A2. lia.
Qed.

Lemma for_fill {A} n (f : nat -> A) s i : i < n -> for_ n (fun i s => upd s i (f i)) s i = f i.
Proof.
  induction n as [|n IH]; intros Hi; [lia|]. rewrite for_S. destruct (Nat.eq_dec i n) as [->|D]; [now rewrite upd_eq|].
  rewrite upd_neq by auto. apply IH. lia.
Qed.

(* ---------- the coefficients of a fitted spline ---------- *)
Lemma qz_nz k : k <> 0%Z -> qz k <> 0%Qc.
Proof.
  intros H E. apply H. unfold qz in E. apply Q2Qc_eq_iff in E. unfold Qeq, inject_Z in E. cbn in E. lia.
Qed.

Definition coefs (n : nat) (x y : arr Qc) (s : spline) : Prop :=
  mx s = x /\ my s = y /\ knots s = n /\
  (forall i, (S i < n)%nat -> x (S i) - x i <> 0 /\ ma s i = (mb s (S i) - mb s i) / (qz 3 * (x (S i) - x i)) /\
     mc s i = (y (S i) - y i) / (x (S i) - x i) - (qz 2 * mb s i + mb s (S i)) * (x (S i) - x i) / qz 3)%Qc /\
  ma s (n - 1) = 0%Qc.

Lemma fit_coefs n x y lt rt lv rv st s : 2 <= n -> fit_cubic_spline n x y lt rt lv rv st = Ok s ->
  solve_trid_system n x y lt rt lv rv st = Ok (mb s) /\ coefs n x y s.
Proof.
  intros Hn E. unfold fit_cubic_spline in E. apply bindS in E. destruct E as (b & Eb & E).
  apply bindS in E. destruct E as (ac & Eac & E). cbv zeta in E. injection E as <-. cbn [mb]. split; [exact Eb|].
  unfold coefs. cbn [mx my knots ma mb mc]. do 3 (split; [reflexivity|]).
  assert (F : forall i, i < n - 1 -> (do! ai <- qdiv (b (i + 1) - b i) (qz 3 * (x (i + 1) - x i));
    do! s <- qdiv (y (i + 1) - y i) (x (i + 1) - x i);
    Ok (ai, s - (qz 2 * b i + b (i + 1)%nat) * (x (i + 1)%nat - x i) / qz 3)%Qc) = Ok (ac i)).
  { refine (proj1 (fill (n - 1) _ _ _ ac _ Eac)). intros i s. cbv zeta.
    destruct (qdiv (b (i + 1) - b i) _); [|reflexivity]. cbn [bind]. destruct (qdiv (y (i + 1) - y i) _); reflexivity. }
  split.
  - intros i Hi. rewrite !upd_neq by lia. specialize (F i ltac:(lia)). replace (i + 1) with (S i) in F by lia.
    apply bindS in F. destruct F as (ai & Ea & F). apply bindS in F. destruct F as (sl & Es & F). injection F as F.
    apply qdiv_ok in Ea, Es. destruct Ea as [Ha ->], Es as [Hs ->]. rewrite <- F. cbn [fst snd]. auto.
  - rewrite upd_eq. reflexivity.
Qed.

(* ---------- finding the piece ---------- *)
Lemma inc_lt n x i j : increasing n x -> i < j -> j < n -> (x i < x j)%Qc.
Proof.
  intros H Hij. induction Hij as [|j Hij IH]; intros Hj; [apply H; lia|].
  eapply Qclt_trans; [apply IH; lia|apply H; lia].
Qed.
Lemma inc_le n x i j : increasing n x -> i <= j -> j < n -> (x i <= x j)%Qc.
Proof.
  intros H Hij Hj. destruct (Nat.eq_dec i j) as [->|D]; [apply Qcle_refl|]. apply Qclt_le_weak, (inc_lt n); auto; lia.
Qed.
Lemma filter_prefix m a (f : nat -> bool) k : (forall i, a <= i < a + m -> f i = (i <? k)) ->
  length (filter f (seq a m)) = Nat.min m (k - a).
Proof.
  revert a. induction m as [|m IH]; intros a H; [reflexivity|]. cbn [seq filter]. rewrite H by lia.
  specialize (IH (S a) ltac:(intros i Hi; apply H; lia)).
  destruct (Nat.ltb_spec a k); cbn [length]; rewrite IH; lia.
Qed.
Lemma count_le n x p k : increasing n x -> k <= n -> (forall i, i < k -> (x i <= p)%Qc) -> (k < n -> (p < x k)%Qc) ->
  searchsorted_right n x p = k.
Proof.
  intros H Hk A B. unfold searchsorted_right. rewrite (filter_prefix n 0 _ k); [lia|].
  intros i Hi. destruct (Nat.ltb_spec i k) as [C|C].
  - apply negb_true_iff, Qc_ltb_ge, A, C.
  - apply negb_false_iff, Qc_ltb_lt. eapply Qclt_le_trans; [apply B; lia|]. apply (inc_le n); auto; lia.
Qed.
Lemma piece_index n x k p : increasing n x -> on_piece n x k p -> searchsorted_right n x p - 1 = k.
Proof.
  intros H (Hk & Hl & Hr). destruct (Qclt_le_dec p (x k)) as [C|C].
  - destruct Hl as [->|Hl]; [|exfalso; now apply (Qcle_not_lt _ _ Hl)].
    rewrite (count_le n x p 0); auto; lia.
  - rewrite (count_le n x p (S k)); auto; try lia.
    intros i Hi. eapply Qcle_trans; [apply (inc_le n x i k); auto; lia|exact C].
Qed.
Lemma last_index n x p : 0 < n -> increasing n x -> (x (n - 1)%nat <= p)%Qc -> searchsorted_right n x p - 1 = n - 1.
Proof.
  intros Hn H Hp. rewrite (count_le n x p n); auto; try lia.
  intros i Hi. eapply Qcle_trans; [apply (inc_le n x i (n - 1)); auto; lia|exact Hp].
Qed.

Definition poly (s : spline) (order : Z) (j : nat) (p : Qc) : Qc :=
  let h := (p - mx s j)%Qc in
  if Z.eqb order 0 then (((ma s j * h + mb s j) * h + mc s j) * h + my s j)%Qc
  else if Z.eqb order 1 then ((qz 3 * ma s j * h + qz 2 * mb s j) * h + mc s j)%Qc
  else (qz 6 * ma s j * h + qz 2 * mb s j)%Qc.

Lemma order_test o : Z.eqb o 0 || Z.eqb o 1 || Z.eqb o 2 = true <-> good_order o.
Proof. rewrite !orb_true_iff, !Z.eqb_eq. unfold good_order. tauto. Qed.

Lemma point_between s o n (x : arr Qc) p : (x 0%nat <= p)%Qc -> (p <= x (n - 1)%nat)%Qc ->
  spline_point s o n x p = poly s o (searchsorted_right (knots s) (mx s) p - 1) p.
Proof.
  intros A B. apply Qc_ltb_ge in A, B. unfold spline_point, poly. cbv zeta. rewrite A, B. reflexivity.
Qed.
Lemma value_poly s o p : good_order o -> value s o p = poly s o (searchsorted_right (knots s) (mx s) p - 1) p.
Proof.
  intros H. unfold value, evaluate_spline. apply order_test in H. rewrite H. cbn [for_]. rewrite upd_eq.
  apply point_between; apply Qcle_refl.
Qed.
Lemma pointwise s n (q : arr Qc) o vals i : evaluate_spline s n q o = Ok vals -> i < n -> (q 0%nat <= q i)%Qc -> (q i <= q (n - 1)%nat)%Qc ->
  vals i = value s o (q i).
Proof.
  intros E Hi A B. unfold evaluate_spline in E. destruct (_ || _) eqn:G in E; [|discriminate]. injection E as <-.
  rewrite (for_fill n (fun i => spline_point s o n q (q i))) by auto.
  rewrite value_poly by now apply order_test. now apply point_between.
Qed.

Lemma qz2 : qz 2 = (1 + 1)%Qc. Proof. now apply Qc_is_canon. Qed.
Lemma qz3 : qz 3 = (1 + 1 + 1)%Qc. Proof. now apply Qc_is_canon. Qed.
Lemma qz6 : qz 6 = (qz 2 * qz 3)%Qc. Proof. now apply Qc_is_canon. Qed.
Ltac qnum := let K := fresh in intro K; apply (f_equal this) in K; vm_compute in K; discriminate.
Ltac qside := repeat split; try assumption; try qnum.
Ltac qfield := rewrite ?qz6, ?qz3, ?qz2; field; qside.

Section Fitted.
  Context (n : nat) (x y : arr Qc) (s : spline) (Hn : 2 <= n) (Hx : increasing n x) (C : coefs n x y s).

  Lemma on_piece_val o k p : good_order o -> on_piece n x k p -> value s o p = poly s o k p.
  Proof.
    intros Ho Hp. rewrite value_poly by auto. destruct C as (E1 & _ & E3 & _). rewrite E1, E3.
    now rewrite (piece_index n x k p).
  Qed.
  Lemma last_val o p : good_order o -> (x (n - 1)%nat <= p)%Qc -> value s o p = poly s o (n - 1) p.
  Proof.
    intros Ho Hp. rewrite value_poly by auto. destruct C as (E1 & _ & E3 & _). rewrite E1, E3.
    rewrite last_index; auto. lia.
  Qed.
  Lemma knot_val o k : good_order o -> k < n -> value s o (x k) = poly s o k (x k).
  Proof.
    intros Ho Hk. destruct (Nat.eq_dec k (n - 1)) as [->|D]; [apply last_val; auto using Qcle_refl|].
    apply on_piece_val; auto. split; [lia|]. split; [right; apply Qcle_refl|]. apply Hx. lia.
  Qed.
  Lemma knot0 k : k < n -> value s 0 (x k) = y k.
  Proof.
    intros Hk. rewrite knot_val by (auto; now left). destruct C as (E1 & E2 & _). unfold poly. cbn. rewrite E1, E2. ring.
  Qed.
  Lemma knot2 k : k < n -> value s 2 (x k) = (qz 2 * mb s k)%Qc.
  Proof.
    intros Hk. rewrite knot_val by (auto; unfold good_order; auto). destruct C as (E1 & E2 & _). unfold poly. cbn. rewrite E1. ring.
  Qed.

  (* the cubic of a piece continued to the right knot *)
  Lemma poly0_right k : S k < n -> poly s 0 k (x (S k)) = y (S k).
  Proof.
    intros Hk. destruct C as (E1 & E2 & _ & Cc & _). destruct (Cc k Hk) as (Hg & Ea & Ec). unfold poly. cbn.
    rewrite E1, E2, Ea, Ec. qfield.
  Qed.
  Lemma poly2_right k : S k < n -> poly s 2 k (x (S k)) = (qz 2 * mb s (S k))%Qc.
  Proof.
    intros Hk. destruct C as (E1 & E2 & _ & Cc & _). destruct (Cc k Hk) as (Hg & Ea & Ec). unfold poly. cbn.
    rewrite E1, Ea. qfield.
  Qed.
  Lemma knot1 k : S k < n -> value s 1 (x k) = mc s k.
  Proof.
    intros Hk. rewrite knot_val by (auto; unfold good_order; auto; lia). destruct C as (E1 & E2 & _). unfold poly. cbn. rewrite E1. ring.
  Qed.

  (* any two points of a piece *)
  Lemma piece k : S k < n -> exists a, forall p, on_piece n x k p ->
    (forall q, on_piece n x k q \/ q = x (S k) ->
       value s 0 q = value s 0 p + value s 1 p * (q - p) + value s 2 p / qz 2 * (q - p) ^ 2 + a * (q - p) ^ 3 /\
       value s 2 q = value s 2 p + qz 6 * a * (q - p))%Qc /\
    (forall q, on_piece n x k q -> value s 1 q = value s 1 p + value s 2 p * (q - p) + qz 3 * a * (q - p) ^ 2)%Qc.
  Proof.
    intros Hk. exists (ma s k). intros p Hp.
    assert (V : forall o, good_order o -> value s o p = poly s o k p) by (intros; now apply on_piece_val).
    rewrite !V by (unfold good_order; auto). split.
    - intros q Hq.
      assert (W : value s 0 q = poly s 0 k q /\ value s 2 q = poly s 2 k q).
      { destruct Hq as [Hq| ->].
        - split; apply on_piece_val; unfold good_order; auto.
        - rewrite knot0, knot2, poly0_right, poly2_right by auto. auto. }
      destruct W as [-> ->]. unfold poly. cbn. split; qfield.
    - intros q Hq. rewrite (on_piece_val 1 k q) by (unfold good_order; auto). unfold poly. cbn. qfield.
  Qed.
  (* beyond the last knot *)
  Lemma beyond p q : (x (n - 1)%nat <= p)%Qc -> (x (n - 1)%nat <= q)%Qc ->
    (value s 0 q = value s 0 p + value s 1 p * (q - p) + value s 2 p / qz 2 * (q - p) ^ 2 /\
     value s 1 q = value s 1 p + value s 2 p * (q - p) /\ value s 2 q = value s 2 p)%Qc.
  Proof.
    intros Hp Hq. rewrite !last_val by (unfold good_order; auto). destruct C as (_ & _ & _ & _ & E). unfold poly. cbn.
    rewrite E. split; [qfield|split; qfield].
  Qed.

  Lemma slope_iff k p : S (S k) < n -> on_piece n x k p ->
    slope_meets s x (S k) p <-> moment_equation x y (fun i => value s 2 (x i)) k.
  Proof.
    intros Hk Hp. unfold slope_meets, moment_equation, secant, gap.
    rewrite !knot2, knot1 by lia. rewrite !(on_piece_val _ k p) by (unfold good_order; auto).
    destruct C as (E1 & E2 & _ & Cc & _). destruct (Cc k ltac:(lia)) as (Hg & Ea & Ec). destruct (Cc (S k) ltac:(lia)) as (Hg' & Ea' & Ec').
    unfold poly. cbn. rewrite E1, Ea, Ec, Ec'.
    set (u := (x (S (S k)) - x (S k))%Qc) in *. set (w := (y (S (S k)) - y (S k))%Qc) in *.
    set (r1 := (_ / (x (S k) - x k))%Qc) in *. set (r2 := (w / u)%Qc) in *. clearbody r1 r2.
    assert (X : ((r2 - (qz 2 * mb s (S k) + mb s (S (S k))) * u / qz 3) -
       ((qz 3 * ((mb s (S k) - mb s k) / (qz 3 * (x (S k) - x k))) * (p - x k) + qz 2 * mb s k) * (p - x k) +
          (r1 - (qz 2 * mb s k + mb s (S k)) * (x (S k) - x k) / qz 3) +
        (x (S k) - p) * ((qz 6 * ((mb s (S k) - mb s k) / (qz 3 * (x (S k) - x k))) * (p - x k) + qz 2 * mb s k + qz 2 * mb s (S k)) / qz 2)) =
       - (((x (S k) - x k) * (qz 2 * mb s k) + qz 2 * (x (S k) - x k + u) * (qz 2 * mb s (S k)) + u * (qz 2 * mb s (S (S k)))) - qz 6 * (r2 - r1)) / qz 6)%Qc) by qfield.
    assert (Hz : forall a b : Qc, (a - b = 0 <-> a = b)%Qc).
    { intros a b. split; [intros E; replace a with (a - b + b)%Qc by ring; rewrite E; ring|intros ->; ring]. }
    rewrite <- Hz, X, <- (Hz _ (qz 6 * (r2 - r1))%Qc).
    set (Y := (_ - qz 6 * (r2 - r1))%Qc). split; intros E.
    - replace Y with (- qz 6 * (- Y / qz 6))%Qc by qfield. rewrite E. ring.
    - rewrite E. qfield.
  Qed.
End Fitted.
