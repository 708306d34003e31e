From Coq Require Import Ring.
From Verif Require Import Prelude PreludeFacts CRing KronModel KronSpec.
Open Scope nat_scope.

Lemma div_pair a b q : b < q -> (a * q + b) / q = a.
Proof. intros H. rewrite Nat.add_comm, Nat.div_add by lia. rewrite Nat.div_small by exact H. lia. Qed.
Lemma mod_pair a b q : b < q -> (a * q + b) mod q = b.
Proof. intros H. rewrite Nat.add_comm, Nat.mod_add by lia. now apply Nat.mod_small. Qed.

Section Proofs.
  Context {K : cops} (L : claws K).
  Add Ring Kring : (law_ring K L).
  Open Scope K_scope.

  Lemma csum_grid a b (f : nat -> K) :
    csum (a * b) f = csum a (fun i => csum b (fun k => f (i * b + k)%nat)).
  Proof.
    induction a as [|a IH]; [reflexivity|]. replace (S a * b)%nat with (a * b + b)%nat by lia.
    rewrite (csum_split L), IH. cbn [csum]. reflexivity.
  Qed.

  Lemma krows_app (A B : list (mat K)) : krows (A ++ B) = (krows A * krows B)%nat.
  Proof. induction A as [|a A IH]; [cbn [app]; change (krows (@nil (mat K))) with 1%nat; lia|]. cbn [app].
    change (krows (a :: (A ++ B))) with (m_r a * krows (A ++ B))%nat. change (krows (a :: A)) with (m_r a * krows A)%nat. rewrite IH. lia. Qed.
  Lemma kcols_app (A B : list (mat K)) : kcols (A ++ B) = (kcols A * kcols B)%nat.
  Proof. induction A as [|a A IH]; [cbn [app]; change (kcols (@nil (mat K))) with 1%nat; lia|]. cbn [app].
    change (kcols (a :: (A ++ B))) with (m_c a * kcols (A ++ B))%nat. change (kcols (a :: A)) with (m_c a * kcols A)%nat. rewrite IH. lia. Qed.
  Lemma krows_cons a (A : list (mat K)) : krows (a :: A) = (m_r a * krows A)%nat.
  Proof. reflexivity. Qed.
  Lemma kcols_cons a (A : list (mat K)) : kcols (a :: A) = (m_c a * kcols A)%nat.
  Proof. reflexivity. Qed.
  Lemma krows1 (a : mat K) : krows [a] = m_r a.
  Proof. unfold krows. cbn. lia. Qed.
  Lemma kcols1 (a : mat K) : kcols [a] = m_c a.
  Proof. unfold kcols. cbn. lia. Qed.

  Lemma div_step p i m q : i < m -> 0 < q -> ((p * m + i) / (q * m))%nat = (p / q)%nat.
  Proof.
    intros Hi Hq. rewrite (Nat.mul_comm q m), <- Nat.div_div by lia. f_equal. now apply div_pair.
  Qed.
  Lemma mod_step p i m q : i < m -> 0 < q -> ((p * m + i) mod (q * m))%nat = ((p mod q) * m + i)%nat.
  Proof.
    intros Hi Hq. pose proof (Nat.mod_upper_bound p q ltac:(lia)).
    assert (E : (p * m + i = (p mod q * m + i) + (p / q) * (q * m))%nat) by (rewrite (Nat.div_mod p q) at 1 by lia; nia).
    rewrite E, Nat.mod_add by nia. apply Nat.mod_small. nia.
  Qed.

  (* appending a factor on the right *)
  Lemma kentry_snoc (P : list (mat K)) a p i j c : i < m_r a -> c < m_c a -> p < krows P -> j < kcols P ->
    kentry (P ++ [a]) (p * m_r a + i) (j * m_c a + c) = kentry P p j * m_e a i c.
  Proof.
    intros Hi Hc. revert p j. induction P as [|q P IH]; intros p j Hp Hj.
    - cbn [app kentry]. cbn in Hp, Hj. assert (p = 0%nat) as -> by lia. assert (j = 0%nat) as -> by lia. cbn [Nat.mul Nat.add krows kcols fold_right].
      rewrite !Nat.div_1_r. ring.
    - cbn [app kentry]. rewrite krows_app, kcols_app, krows1, kcols1. rewrite krows_cons in Hp. rewrite kcols_cons in Hj.
      assert (0 < krows P) by nia. assert (0 < kcols P) by nia.
      rewrite !div_step, !mod_step, IH by (assumption || (apply Nat.mod_upper_bound; lia)). ring.
  Qed.

  (* the vector after the factors P have been processed, S remaining *)
  Definition inv (P S : list (mat K)) (b x : nat -> K) : Prop :=
    forall s p, s < kcols S -> p < krows P ->
      x (s * krows P + p)%nat = csum (kcols P) (fun j => kentry P p j * b (j * kcols S + s)%nat).

  Lemma inv_step P a S b (x : vec K) X x' :
    inv P (a :: S) b (x_e x) ->
    reshape2 x (m_c a) (kcols S * krows P) = Ok X -> contract a (m_c a) (kcols S * krows P) X = Ok x' ->
    x_n x' = (kcols S * krows P * m_r a)%nat /\ inv (P ++ [a]) S b (x_e x').
  Proof.
    intros I H1 H2. unfold reshape2 in H1. destruct (Nat.eqb _ _); [|discriminate]. injection H1 as <-.
    unfold contract in H2. rewrite Nat.eqb_refl in H2. injection H2 as <-. split; [reflexivity|].
    cbn [x_e]. intros s p' Hs Hp'. rewrite krows_app, krows1 in *.
    assert (Hm : 0 < m_r a) by nia.
    set (p := (p' / m_r a)%nat). set (i := (p' mod m_r a)%nat).
    assert (Ep : p' = (p * m_r a + i)%nat) by (unfold p, i; rewrite (Nat.div_mod p' (m_r a)) at 1 by lia; lia).
    assert (Hi : i < m_r a) by (apply Nat.mod_upper_bound; lia).
    assert (Hp : p < krows P) by (apply Nat.div_lt_upper_bound; lia).
    rewrite Ep. replace (s * (krows P * m_r a) + (p * m_r a + i))%nat with ((s * krows P + p) * m_r a + i)%nat by lia.
    rewrite div_pair, mod_pair by exact Hi.
    rewrite kcols_app, kcols1, csum_grid.
    rewrite (csum_ext _ (fun c => m_e a i c * x_e x (c * (kcols S * krows P) + (s * krows P + p))%nat)
       (fun c => csum (kcols P) (fun j => m_e a i c * (kentry P p j * b (j * (m_c a * kcols S) + (c * kcols S + s))%nat)))).
    - rewrite (csum_swap L). apply csum_ext. intros j Hj. apply csum_ext. intros c Hc.
      rewrite kentry_snoc by assumption.
      replace ((j * m_c a + c) * kcols S + s)%nat with (j * (m_c a * kcols S) + (c * kcols S + s))%nat by lia. ring.
    - intros c Hc. rewrite (csum_mul_l L). f_equal.
      replace (c * (kcols S * krows P) + (s * krows P + p))%nat with ((c * kcols S + s) * krows P + p)%nat by lia.
      rewrite (I (c * kcols S + s)%nat p); [reflexivity|rewrite kcols_cons; nia|exact Hp].
  Qed.

  Lemma inv_done (A : list (mat K)) b x : inv A [] b x -> forall i, i < krows A -> x i = dense_dot A b i.
  Proof.
    intros I i Hi. specialize (I 0%nat i ltac:(cbn; lia) Hi). cbn [Nat.mul Nat.add] in I. rewrite I.
    unfold dense_dot. apply csum_ext. intros j Hj. cbn [kcols fold_right]. do 2 f_equal. lia.
  Qed.
  Lemma inv_start (A : list (mat K)) b : inv [] A b b.
  Proof.
    intros s p Hs Hp. cbn in Hp. assert (p = 0%nat) as -> by lia. cbn. rewrite Nat.mul_1_r, Nat.add_0_r. ring.
  Qed.

  (* ---------- kron_matvec ---------- *)
  Lemma sq_rc (A : list (mat K)) : Forall square A -> krows A = kcols A.
  Proof. induction 1 as [|a A [E _] _ IH]; [reflexivity|]. rewrite krows_cons, kcols_cons, E, IH. reflexivity. Qed.

  Lemma matvec_loop P S b (x : vec K) : Forall square P -> Forall square S ->
    x_n x = krows (P ++ S) -> inv P S b (x_e x) ->
    exists y, kron_matvec_loop (krows (P ++ S)) S x = Ok y /\ x_n y = krows (P ++ S) /\ inv (P ++ S) [] b (x_e y).
  Proof.
    revert P x. induction S as [|a S IH]; intros P x SP SS Hn I.
    - exists x. rewrite app_nil_r in *. split; [reflexivity|]. auto.
    - inversion SS as [|? ? [Ha Hp] SS']; subst. cbn [kron_matvec_loop].
      destruct (Nat.eqb_spec (m_r a) 0); [lia|].
      assert (Ek : krows (P ++ a :: S) = (m_r a * (kcols S * krows P))%nat).
      { rewrite krows_app, krows_cons, (sq_rc S SS'). lia. }
      assert (Ed : (krows (P ++ a :: S) / m_r a = kcols S * krows P)%nat).
      { rewrite Ek, Nat.mul_comm, Nat.div_mul by lia. reflexivity. }
      rewrite Ed. 
      destruct (reshape2 x (m_r a) (kcols S * krows P)) as [X|] eqn:E1.
      2:{ unfold reshape2 in E1. rewrite Hn, Ek, Nat.eqb_refl in E1. discriminate. }
      cbn [bind]. destruct (contract a (m_r a) (kcols S * krows P) X) as [x'|] eqn:E2.
      2:{ unfold contract in E2. rewrite <- Ha, Nat.eqb_refl in E2. discriminate. }
      cbn [bind]. rewrite Ha in E1, E2. destruct (inv_step P a S b x X x' I E1 E2) as [Hn' I'].
      specialize (IH (P ++ [a]) x'). rewrite <- app_assoc in IH. cbn [app] in IH.
      apply IH; [apply Forall_app; split; [exact SP|constructor; [split; assumption|constructor]]|exact SS'| |exact I'].
      rewrite Hn', Ek. lia.
  Qed.

  Theorem kron_matvec_dense (A : list (mat K)) (b : vec K) : Forall square A -> x_n b = krows A ->
    exists x, kron_matvec A b = Ok x /\ x_n x = krows A /\ forall i, i < krows A -> x_e x i = dense_dot A (x_e b) i.
  Proof.
    intros S Hn. destruct (matvec_loop [] A (x_e b) b (Forall_nil _) S Hn (inv_start A (x_e b))) as (y & E & Hy & I).
    exists y. unfold kron_matvec. rewrite Hn. split; [exact E|]. split; [exact Hy|]. now apply inv_done.
  Qed.

  (* a right-hand side of the wrong length is rejected *)
  Theorem kron_matvec_bad_length a (A : list (mat K)) (b : vec K) : 0 < m_r a ->
    (x_n b mod m_r a <> 0)%nat -> kron_matvec (a :: A) b = Raise ValueError.
  Proof.
    intros Hp Hb. unfold kron_matvec. cbn [kron_matvec_loop]. destruct (Nat.eqb_spec (m_r a) 0); [lia|].
    unfold reshape2. destruct (Nat.eqb_spec (m_r a * (x_n b / m_r a)) (x_n b)) as [E|]; [|reflexivity].
    exfalso. apply Hb. pose proof (Nat.div_mod (x_n b) (m_r a) ltac:(lia)). lia.
  Qed.

  (* ---------- kron_tensorvec ---------- *)

  Lemma wrap8_small n : n < 128 -> wrap8 n = Z.of_nat n.
  Proof. intros H. unfold wrap8. rewrite Z.mod_small; lia. Qed.
  Lemma prod_acc l z : fold_left Z.mul l z = (z * fold_left Z.mul l 1)%Z.
  Proof.
    revert z. induction l as [|x l IH]; intros z; cbn [fold_left]; [lia|].
    rewrite (IH (z * x)%Z), (IH (1 * x)%Z). rewrite Z.mul_1_l, Z.mul_assoc. reflexivity.
  Qed.
  Lemma prod_rows (A : list (mat K)) : Forall small A -> fold_left Z.mul (map (fun a => wrap8 (m_r a)) A) 1%Z = Z.of_nat (krows A).
  Proof.
    induction 1 as [|a A [H1 H2] _ IH]; [reflexivity|]. cbn [map fold_left]. rewrite prod_acc, IH, krows_cons, wrap8_small by exact H1. lia.
  Qed.
  Lemma prod_cols (A : list (mat K)) : Forall small A -> fold_left Z.mul (map (fun a => wrap8 (m_c a)) A) 1%Z = Z.of_nat (kcols A).
  Proof.
    induction 1 as [|a A [H1 H2] _ IH]; [reflexivity|]. cbn [map fold_left]. rewrite prod_acc, IH, kcols_cons, wrap8_small by exact H2. lia.
  Qed.
  Lemma list_upd_app (l1 : list Z) x l2 v : list_upd (l1 ++ x :: l2) (length l1) v = l1 ++ v :: l2.
  Proof. induction l1 as [|y l1 IH]; [reflexivity|]. cbn. now rewrite IH. Qed.

  Definition tv_body (A : list (mat K)) (d : nat) (st : vec K * list Z) : res (vec K * list Z) :=
    let '(x, G) := st in
    let a := nth d A {| m_r := 0; m_c := 0; m_e := fun _ _ => 0 |} in
    let Gd := nth d G 0%Z in
    let rem := prod_others G d in
    do! X <- reshapeZ x Gd rem;
    do! x' <- contract a (Z.to_nat Gd) (Z.to_nat rem) X;
    Ok (x', list_upd G d (nth d (map (fun a => wrap8 (m_r a)) A) 0%Z)).

  Lemma tensorvec_loop (A : list (mat K)) (b : vec K) : Forall small A -> x_n b = kcols A ->
    forall d, d <= length A ->
    exists x, forM d (tv_body A) (b, map (fun a => wrap8 (m_c a)) A)
              = Ok (x, map (fun a => wrap8 (m_r a)) (firstn d A) ++ map (fun a => wrap8 (m_c a)) (skipn d A)) /\
      x_n x = (kcols (skipn d A) * krows (firstn d A))%nat /\ inv (firstn d A) (skipn d A) (x_e b) (x_e x).
  Proof.
    intros Sm Hn. induction d as [|d IH]; intros Hd.
    - exists b. split; [reflexivity|]. split; [cbn [skipn firstn]; rewrite Hn; unfold krows; cbn; lia|]. apply inv_start.
    - destruct (IH ltac:(lia)) as (x & E & Hx & I). cbn [forM]. rewrite E. cbn [bind].
      set (P := firstn d A) in *.
      assert (Hs : exists a T, skipn d A = a :: T /\ nth_error A d = Some a /\ firstn (S d) A = P ++ [a] /\ skipn (S d) A = T).
      { unfold P. clear -Hd. revert d Hd. induction A as [|a A IH]; intros d Hd; [cbn in Hd; lia|].
        destruct d as [|d]; [exists a, A; repeat split; reflexivity|]. cbn in Hd.
        destruct (IH d ltac:(lia)) as (a' & T & H1 & H2 & H3 & H4). exists a', T. cbn [skipn nth_error]. split; [exact H1|].
        split; [exact H2|]. split; [|exact H4]. rewrite (firstn_cons (S d)), H3. reflexivity. }
      destruct Hs as (a & T & Es & Ea & Ef & Ek). rewrite Ef, Ek. rewrite Es in *.
      assert (SmA : Forall small (P ++ a :: T)) by (unfold P; rewrite <- Es, firstn_skipn; exact Sm).
      apply Forall_app in SmA. destruct SmA as [SP SaS]. inversion SaS as [|? ? [Sr Sc] SS]; subst.
      set (G := _ ++ _).
      assert (LP : length (map (fun a : mat K => wrap8 (m_r a)) P) = d) by (rewrite map_length; unfold P; rewrite firstn_length; lia).
      assert (EG : nth d G 0%Z = wrap8 (m_c a)).
      { unfold G. rewrite app_nth2, LP, Nat.sub_diag by lia. reflexivity. }
      assert (ER : prod_others G d = Z.of_nat (kcols (skipn (S d) A) * krows P)).
      { unfold prod_others, G. rewrite <- LP at 1. rewrite firstn_app, Nat.sub_diag, firstn_all. cbn [firstn]. rewrite app_nil_r.
        assert (Esk : skipn (S d) (map (fun a : mat K => wrap8 (m_r a)) P ++ map (fun a : mat K => wrap8 (m_c a)) (a :: skipn (S d) A))
                      = map (fun a : mat K => wrap8 (m_c a)) (skipn (S d) A)).
        { rewrite skipn_app, skipn_all2 by lia. rewrite LP. replace (S d - d)%nat with 1%nat by lia. reflexivity. }
        rewrite Esk, fold_left_app, prod_acc, prod_cols, prod_rows by assumption. lia. }
      unfold tv_body. rewrite EG, ER, wrap8_small by exact Sc.
      rewrite (nth_error_nth A d _ Ea).
      unfold reshapeZ. destruct (Z.ltb_spec (Z.of_nat (m_c a)) 0); [lia|].
      destruct (Z.ltb_spec (Z.of_nat (kcols (skipn (S d) A) * krows P)) 0); [lia|]. cbn [orb]. rewrite !Nat2Z.id.
      destruct (reshape2 x (m_c a) _) as [X|] eqn:E1.
      2:{ unfold reshape2 in E1. rewrite Hx, kcols_cons in E1. rewrite (proj2 (Nat.eqb_eq _ _)) in E1; [discriminate|lia]. }
      cbn [bind]. destruct (contract a (m_c a) _ X) as [x'|] eqn:E2.
      2:{ unfold contract in E2. rewrite Nat.eqb_refl in E2. discriminate. }
      cbn [bind]. destruct (inv_step P a _ (x_e b) x X x' I E1 E2) as [Hn' I'].
      exists x'. split; [|split].
      + f_equal. f_equal.
        assert (Ev : nth d (map (fun a : mat K => wrap8 (m_r a)) A) 0%Z = wrap8 (m_r a)).
        { rewrite (nth_indep _ 0%Z (wrap8 (m_r a))) by (rewrite map_length; lia).
          rewrite (map_nth (fun a : mat K => wrap8 (m_r a)) A a). do 2 f_equal. now apply nth_error_nth. }
        rewrite Ev.
        pose proof (list_upd_app (map (fun a : mat K => wrap8 (m_r a)) P) (wrap8 (m_c a)) (map (fun a : mat K => wrap8 (m_c a)) (skipn (S d) A)) (wrap8 (m_r a))) as U.
        rewrite LP in U. unfold G. cbn [map]. rewrite U, map_app, <- app_assoc. reflexivity.
      + rewrite Hn', krows_app, krows1. lia.
      + exact I'.
  Qed.

  Theorem kron_tensorvec_dense (A : list (mat K)) (b : vec K) : Forall small A -> x_n b = kcols A ->
    exists x, kron_tensorvec A b = Ok x /\ x_n x = krows A /\ forall i, i < krows A -> x_e x i = dense_dot A (x_e b) i.
  Proof.
    intros Sm Hn. destruct (tensorvec_loop A b Sm Hn (length A) (Nat.le_refl _)) as (x & E & Hx & I).
    rewrite firstn_all, skipn_all in *. exists x. split; [|split].
    - unfold kron_tensorvec. change (forM (length A) _ _) with (forM (length A) (tv_body A) (b, map (fun a => wrap8 (m_c a)) A)).
      rewrite E. reflexivity.
    - rewrite Hx. unfold kcols. cbn. lia.
    - now apply inv_done.
  Qed.

  (* ---------- columns ---------- *)
  Lemma kron_N_rows (A : list (mat K)) : kron_N A = krows A.
  Proof.
    unfold kron_N. assert (X : forall p, fold_left (fun p a => (p * m_r a)%nat) A p = (p * krows A)%nat).
    { induction A as [|a A IH]; intros p; cbn [fold_left]; [cbn; lia|]. rewrite IH, krows_cons. lia. }
    rewrite X. lia.
  Qed.
  Lemma apply_cols_spec op store (A : list (mat K)) (B : mat K) :
    (forall i, i < m_c B -> exists x, op (mat_col B i) = Ok x /\ x_n x = krows A /\
         forall r, r < krows A -> x_e x r = dense_dot A (fun j => m_e B j i) r) ->
    exists C, apply_cols op store A B = Ok C /\ m_r C = krows A /\ m_c C = m_c B /\
      forall r i, r < krows A -> i < m_c B -> m_e C r i = store (dense_dot A (fun j => m_e B j i) r).
  Proof.
    intros H. unfold apply_cols. rewrite kron_N_rows.
    set (body := fun (i : nat) (C : nat -> nat -> K) => _).
    assert (X : forall m, m <= m_c B -> exists C, forM m body (fun _ _ => 0) = Ok C /\
       forall r i, r < krows A -> i < m -> C r i = store (dense_dot A (fun j => m_e B j i) r)).
    { induction m as [|m IH]; intros Hm; [eexists; split; [reflexivity|]; intros; lia|].
      destruct (IH ltac:(lia)) as (C & E & HC). cbn [forM]. rewrite E. cbn [bind]. unfold body at 1.
      destruct (H m ltac:(lia)) as (x & Ex & Hx & Hd). rewrite Ex. cbn [bind]. rewrite Hx, Nat.eqb_refl.
      eexists. split; [reflexivity|]. intros r i Hr Hi. cbn beta. destruct (Nat.eqb_spec i m) as [->|Ne].
      - now rewrite Hd.
      - apply HC; lia. }
    destruct (X (m_c B) (Nat.le_refl _)) as (C & E & HC). rewrite E. cbn [bind]. eexists. split; [reflexivity|].
    cbn [m_r m_c m_e]. split; [reflexivity|]. split; [reflexivity|exact HC].
  Qed.

  Theorem kron_matmat_dense store (A : list (mat K)) (B : mat K) : Forall square A -> m_r B = krows A ->
    exists C, kron_matmat store A B = Ok C /\ m_r C = krows A /\ m_c C = m_c B /\
      forall r i, r < krows A -> i < m_c B -> m_e C r i = store (dense_dot A (fun j => m_e B j i) r).
  Proof.
    intros S Hn. apply apply_cols_spec. intros i Hi. exact (kron_matvec_dense A (mat_col B i) S Hn).
  Qed.
  (* a right-hand side with another number of rows *)
  Lemma matvec_length (A : list (mat K)) : Forall square A -> forall N (x : vec K), x_n x = N ->
    kron_matvec_loop N A x = Raise ValueError \/ exists y, kron_matvec_loop N A x = Ok y /\ x_n y = N.
  Proof.
    induction 1 as [|a A [Sa Sp] _ IH]; intros N x HN; [right; now exists x|]. cbn [kron_matvec_loop]. destruct (Nat.eqb_spec (m_r a) 0); [lia|].
    unfold reshape2. destruct (Nat.eqb_spec (m_r a * (N / m_r a)) (x_n x)) as [E|]; [|now left]. cbn [bind]. unfold contract. rewrite <- Sa, Nat.eqb_refl. cbn [bind].
    apply IH. cbn [x_n]. rewrite Nat.mul_comm. congruence.
  Qed.
  Theorem kron_matmat_bad_rows store (A : list (mat K)) (B : mat K) : Forall square A -> 0 < m_c B -> m_r B <> krows A -> kron_matmat store A B = Raise ValueError.
  Proof.
    intros SQ HC NE. unfold kron_matmat, apply_cols. rewrite kron_N_rows. set (body := fun (i : nat) (C : nat -> nat -> K) => _).
    assert (X : forall m, 0 < m -> forM m body (fun _ _ => 0) = Raise ValueError).
    { induction m as [|m IH]; [lia|]. intros _. cbn [forM]. destruct m as [|m]; [|now rewrite IH by lia]. cbn [forM bind]. unfold body, kron_matvec.
      destruct (matvec_length A SQ (m_r B) (mat_col B 0) eq_refl) as [E|(y & E & HY)]; cbn [mat_col x_n] in *; rewrite E; [reflexivity|]. cbn [bind].
      rewrite HY. destruct (Nat.eqb_spec (m_r B) (krows A)); [contradiction|reflexivity]. }
    now rewrite X.
  Qed.
  Theorem kron_tensormat_dense store (A : list (mat K)) (B : mat K) : Forall small A -> m_r B = kcols A ->
    exists C, kron_tensormat store A B = Ok C /\ m_r C = krows A /\ m_c C = m_c B /\
      forall r i, r < krows A -> i < m_c B -> m_e C r i = store (dense_dot A (fun j => m_e B j i) r).
  Proof.
    intros S Hn. apply apply_cols_spec. intros i Hi. exact (kron_tensorvec_dense A (mat_col B i) S Hn).
  Qed.

  (* ---------- kron_cholesky ---------- *)
  Lemma gram_kron (ls A : list (mat K)) : Forall square A -> Forall2 factor_of ls A ->
    krows ls = krows A /\ kcols ls = krows A /\
    forall i j, i < krows A -> j < krows A -> gram (kentry ls) (krows A) i j = kentry A i j.
  Proof.
    intros S H. induction H as [|l a ls A (H1 & H2 & H3) _ IH].
    - repeat split; try reflexivity. intros i j Hi Hj. unfold gram. cbn. rewrite (conj_1 L). ring.
    - inversion S as [|? ? [Sa Sp] SA]; subst. destruct (IH SA) as (R & C & G).
      split; [rewrite !krows_cons, H1, R; reflexivity|]. split; [rewrite kcols_cons, krows_cons, H2, C; reflexivity|].
      intros i j Hi Hj. rewrite krows_cons in *. assert (0 < krows A) by nia.
      pose proof (sq_rc A SA) as Erc.
      cbn [kentry]. rewrite <- Erc.
      assert (Hi1 : (i / krows A < m_r a)%nat) by (apply Nat.div_lt_upper_bound; lia).
      assert (Hj1 : (j / krows A < m_r a)%nat) by (apply Nat.div_lt_upper_bound; lia).
      assert (Hi2 : (i mod krows A < krows A)%nat) by (apply Nat.mod_upper_bound; lia).
      assert (Hj2 : (j mod krows A < krows A)%nat) by (apply Nat.mod_upper_bound; lia).
      rewrite <- (H3 _ _ Hi1 Hj1), <- (G _ _ Hi2 Hj2). unfold gram.
      rewrite csum_grid, <- (csum_mul_r L). apply csum_ext. intros k1 Hk1. rewrite <- (csum_mul_l L).
      apply csum_ext. intros k2 Hk2. rewrite R, C. rewrite div_pair, mod_pair by exact Hk2.
      rewrite (law_conj_mul K L). ring.
  Qed.

  Theorem kron_cholesky_ok chol eps (A : list (mat K)) : Forall square A ->
    (forall a, In a A -> exists l, chol a = Ok l /\ factor_of l a) ->
    exists ls, kron_cholesky chol eps A = Ok ls /\ length ls = length A /\ krows ls = krows A /\ kcols ls = krows A /\
      forall i j, i < krows A -> j < krows A -> gram (kentry ls) (krows A) i j = kentry A i j.
  Proof.
    intros S H.
    assert (X : exists ls, kron_cholesky chol eps A = Ok ls /\ Forall2 factor_of ls A).
    { clear S. induction A as [|a A IH]; [exists []; split; [reflexivity|constructor]|].
      destruct (H a (or_introl eq_refl)) as (l & E & Hl). destruct IH as (ls & E' & F'); [intros; apply H; now right|].
      exists (l :: ls). cbn [kron_cholesky]. rewrite E. cbn [bind]. rewrite E'. split; [reflexivity|]. now constructor. }
    destruct X as (ls & E & F2). exists ls. split; [exact E|]. split; [clear -F2; induction F2; cbn; congruence|].
    now apply gram_kron.
  Qed.

  (* a factor that the decomposition rejects is decomposed with jitter on its diagonal *)
  Theorem kron_cholesky_jitter chol eps (A : list (mat K)) : Forall square A ->
    (forall a, In a A -> (exists l, chol a = Ok l /\ factor_of l a) \/
                         (exists e l, chol a = Raise e /\ chol (add_jitter eps a) = Ok l /\ factor_of l (add_jitter eps a))) ->
    exists ls A', kron_cholesky chol eps A = Ok ls /\
      Forall2 (fun a a' => match chol a with Ok _ => a' = a | Raise _ => a' = add_jitter eps a end) A A' /\
      forall i j, i < krows A -> j < krows A -> gram (kentry ls) (krows A) i j = kentry A' i j.
  Proof.
    intros S H.
    assert (X : exists ls A', kron_cholesky chol eps A = Ok ls /\ Forall2 factor_of ls A' /\ Forall square A' /\ krows A' = krows A /\
      Forall2 (fun a a' => match chol a with Ok _ => a' = a | Raise _ => a' = add_jitter eps a end) A A').
    { induction S as [|a A Sa S IH]; [exists [], []; repeat split; constructor|].
      destruct IH as (ls & A' & E' & F1 & S' & R & F2); [intros; apply H; now right|].
      destruct (H a (or_introl eq_refl)) as [(l & E & Hl)|(e & l & E & E2 & Hl)].
      - exists (l :: ls), (a :: A'). cbn [kron_cholesky]. rewrite E. cbn [bind]. rewrite E'. split; [reflexivity|].
        split; [now constructor|]. split; [now constructor|]. split; [now rewrite !krows_cons, R|]. constructor; [now rewrite E|exact F2].
      - exists (l :: ls), (add_jitter eps a :: A'). cbn [kron_cholesky]. rewrite E, E2. cbn [bind]. rewrite E'. split; [reflexivity|].
        split; [now constructor|]. split; [now constructor|]. split; [rewrite !krows_cons, R; reflexivity|]. constructor; [now rewrite E|exact F2]. }
    destruct X as (ls & A' & E & F1 & S' & R & F2). exists ls, A'. split; [exact E|]. split; [exact F2|].
    rewrite <- R. now apply gram_kron.
  Qed.

  Lemma add_jitter_jittered eps (a : mat K) : jittered eps a (add_jitter eps a).
  Proof.
    repeat split; cbn.
    - intros i. now rewrite Nat.eqb_refl.
    - intros i j H. destruct (Nat.eqb_spec i j); [contradiction|]. ring.
  Qed.
  Theorem kron_cholesky_jittered chol eps (A : list (mat K)) : Forall square A ->
    (forall a, In a A -> (exists l, chol a = Ok l /\ factor_of l a) \/
       (exists e, chol a = Raise e /\ forall a', jittered eps a a' -> exists l, chol a' = Ok l /\ factor_of l a')) ->
    exists ls A', kron_cholesky chol eps A = Ok ls /\
      Forall2 (fun a a' => match chol a with Ok _ => a' = a | Raise _ => jittered eps a a' end) A A' /\
      forall i j, i < krows A -> j < krows A -> gram (kentry ls) (krows A) i j = kentry A' i j.
  Proof.
    intros S H. destruct (kron_cholesky_jitter chol eps A S) as (ls & A' & E & F & G).
    - intros a Ia. destruct (H a Ia) as [?|(e & E & J)]; [now left|right].
      destruct (J _ (add_jitter_jittered eps a)) as (l & El & Fl). eauto.
    - exists ls, A'. split; [exact E|]. split; [|exact G].
      clear - F L. induction F as [|a a' A A' Ha F IH]; constructor; [|exact IH].
      destruct (chol a); [exact Ha|]. subst. apply add_jitter_jittered.
  Qed.
End Proofs.
