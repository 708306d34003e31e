(* When fitting succeeds, and what a fit of a straight line looks like. *)
From Coq Require Import QArith QArith.Qcanon Lqa.
From Verif Require Import Prelude PreludeFacts LoopFacts QcArith QcFacts SplineModel SplineSpec SplineProofs SplineProofs2.
Close Scope Q_scope. Close Scope Qc_scope.
Open Scope nat_scope.

Ltac ql := qc_norm; change (this (Q2Qc 0)) with 0%Q in *; lra.

Lemma filter_le {A} (f : A -> bool) l : length (filter f l) <= length l.
Proof. induction l as [|a l IH]; [reflexivity|]. cbn [filter]. destruct (f a); cbn [length]; lia. Qed.
Lemma third_pos : (0 < third)%Qc. Proof. reflexivity. Qed.
Lemma qz2_pos : (0 < qz 2)%Qc. Proof. reflexivity. Qed.
Lemma gap_pos n x i : increasing n x -> S i < n -> (0 < x (S i) - x i)%Qc.
Proof. intros H Hi. apply (proj1 (Qclt_minus_iff _ _)). now apply H. Qed.
Lemma pos_nz a : (0 < a)%Qc -> a <> 0%Qc.
Proof. intros H E. rewrite E in H. now apply Qclt_not_eq in H. Qed.
Lemma mul_pos a b : (0 < a)%Qc -> (0 < b)%Qc -> (0 < a * b)%Qc.
Proof. intros A B. replace 0%Qc with (0 * b)%Qc by ring. now apply Qcmult_lt_compat_r. Qed.
Lemma add_pos a b : (0 < a)%Qc -> (0 <= b)%Qc -> (0 < a + b)%Qc.
Proof. intros A B. generalize dependent a. generalize dependent b. intros. ql. Qed.

(* the diagonal never vanishes for increasing knots when the corner entry is not negative *)
Lemma diag_pos n x y d :
  increasing n x -> (forall i, 1 <= i -> i < n - 1 -> d i = inner_row x y i) ->
  (0 < rB (d 0%nat))%Qc -> rC (d 0) = 0%Qc -> (0 < rB (d (n - 1)%nat))%Qc -> (rA (d (n - 1)%nat) <= 0)%Qc ->
  forall i, i < n -> (0 < rB (sweep n d i))%Qc.
Proof.
  intros Hx Di B0 C0 Bl Al. destruct (sweep_ok n d) as [S0 S1].
  assert (CC : forall i, i < n -> rC (sweep n d i) = rC (d i) /\ rA (sweep n d i) = rA (d i)).
  { intros [|i] Hi; [now rewrite S0|]. now rewrite S1 by lia. }
  assert (G : forall i, 1 <= i -> i < n - 1 -> (qz 2 * third * (x (i + 1)%nat - x (i - 1)%nat) <= rB (sweep n d i))%Qc).
  { induction i as [|i IH]; [lia|]. intros _ Hi. rewrite S1 by lia. cbn [swept rB]. rewrite (proj1 (CC i ltac:(lia))).
    rewrite (Di (S i)) by lia. cbn [inner_row rB rA]. replace (S i - 1) with i by lia.
    destruct i as [|i].
    - rewrite C0. match goal with |- (?a <= ?a - ?b * 0)%Qc => replace (a - b * 0)%Qc with a by ring end. apply Qcle_refl.
    - specialize (IH ltac:(lia) ltac:(lia)). rewrite (Di (S i)) by lia. cbn [inner_row rC].
      replace (S i + 1) with (S (S i)) in * by lia. replace (S i - 1) with i in IH by lia.
      assert (P1 : (0 < x (S (S i)) - x (S i))%Qc) by (apply (gap_pos n); auto; lia).
      assert (P0 : (0 < x (S i) - x i)%Qc) by (apply (gap_pos n); auto; lia).
      set (b := rB (sweep n d (S i))) in *. clearbody b.
      set (h1 := (x (S (S i)) - x (S i))%Qc) in *. replace (x (S (S i)) - x i)%Qc with (h1 + (x (S i) - x i))%Qc in IH by (unfold h1; ring).
      set (h0 := (x (S i) - x i)%Qc) in *. clearbody h0 h1.
      match goal with |- (?a <= ?a - ?w)%Qc => assert (W : (0 <= - w)%Qc) end.
      { apply Qclt_le_weak. match goal with |- (0 < - ((?p - b) * ?q))%Qc => replace (- ((p - b) * q))%Qc with ((b - p) * q)%Qc by ring end.
        apply mul_pos; [|apply mul_pos; [exact third_pos|exact P1]].
        assert (T : (0 < third * h1)%Qc) by (apply mul_pos; auto using third_pos).
        assert (T0 : (0 < third * h0)%Qc) by (apply mul_pos; auto using third_pos).
        replace (qz 2 * third * (h1 + h0))%Qc with (third * h1 + third * h1 + (third * h0 + third * h0))%Qc in IH by (rewrite qz2; ring).
        revert IH T T0. generalize (third * h1)%Qc, (third * h0)%Qc. intros u v IH T T0. ql. }
      revert W. match goal with |- (0 <= - ?w)%Qc -> (?a <= _)%Qc => generalize w, a end. intros w a W. ql. }
  assert (P : forall i, 1 <= i -> i < n - 1 -> (0 < rB (sweep n d i))%Qc).
  { intros i H1 H2. eapply Qclt_le_trans; [|apply G; auto]. apply mul_pos; [apply mul_pos; [exact qz2_pos|exact third_pos]|].
    destruct i as [|i]; [lia|]. replace (S i + 1) with (S (S i)) by lia. replace (S i - 1) with i by lia.
    apply (proj1 (Qclt_minus_iff _ _)). apply (inc_lt n); auto; lia. }
  intros i Hi. destruct i as [|i]; [now rewrite S0|].
  destruct (Nat.eq_dec (S i) (n - 1)) as [E|D]; [|apply P; lia].
  rewrite S1 by lia. cbn [swept rB]. rewrite E, (proj1 (CC i ltac:(lia))).
  destruct i as [|i].
  - rewrite C0. match goal with |- (0 < ?a - ?b * 0)%Qc => replace (a - b * 0)%Qc with a by ring end. exact Bl.
  - rewrite (Di (S i)) by lia. cbn [inner_row rC]. replace (S i + 1) with (S (S i)) by lia.
    assert (W : (0 < (rB (sweep n d (S i)) - rA (d (n - 1)%nat)) * (third * (x (S (S i)) - x (S i))))%Qc).
    { apply mul_pos; [|apply mul_pos; [exact third_pos|apply (gap_pos n); auto; lia]].
      specialize (P (S i) ltac:(lia) ltac:(lia)). revert P Al. generalize (rB (sweep n d (S i))), (rA (d (n - 1))). intros u v P Al. ql. }
    match type of W with (0 < (?b - ?a) * ?c)%Qc => match goal with |- (0 < ?u - (a - b) * c)%Qc =>
      replace (u - (a - b) * c)%Qc with (u + (b - a) * c)%Qc by ring; revert W; generalize ((b - a) * c)%Qc end end.
    revert Bl. generalize (rB (d (n - 1))). intros u Bl w W. ql.
Qed.

Lemma left_exn x y lt lv d : lt <> 1%Z -> lt <> 2%Z -> left_end x y lt lv d = Raise ValueError.
Proof. intros A B. unfold left_end. apply Z.eqb_neq in A, B. now rewrite A, B. Qed.

Lemma solve_errors n x y lt rt lv rv' st : 2 <= n -> increasing n x ->
  (~ types_ok lt rt -> solve_trid_system n x y lt rt lv rv' st = Raise ValueError) /\
  (types_ok lt rt -> lv = 0%Qc \/ lt = 1%Z -> exists z, solve_trid_system n x y lt rt lv rv' st = Ok z) /\
  (types_ok lt rt -> forall e, solve_trid_system n x y lt rt lv rv' st = Raise e -> e = ZeroDivision).
Proof.
  intros Hn Hx. destruct (interior_total n x y Hx) as (d0 & E0). unfold solve_trid_system. rewrite E0. cbn [bind].
  assert (N10 : (x 1%nat - x 0%nat <> 0)%Qc) by (apply (gap_nz n); auto; lia).
  assert (Nl : (x (n - 1)%nat - x (n - 2)%nat <> 0)%Qc).
  { replace (n - 1) with (S (n - 2)) by lia. apply (gap_nz n); auto; lia. }
  destruct (interior_ok n x y d0 E0) as [I1 I2].
  assert (Lt : (exists d1, left_end x y lt lv d0 = Ok d1 /\ (lt = 1%Z \/ lt = 2%Z) /\ (forall i, 1 <= i -> d1 i = d0 i) /\ (0 < rB (d1 0%nat))%Qc /\
            (lv = 0%Qc \/ lt = 1%Z -> rC (d1 0) = 0%Qc)) \/
          lt <> 1%Z /\ lt <> 2%Z /\ left_end x y lt lv d0 = Raise ValueError).
  { destruct (Z.eq_dec lt 2) as [->|D2]; [|destruct (Z.eq_dec lt 1) as [->|D1]; [|right; auto using left_exn]].
    - left. eexists. split; [reflexivity|]. split; [now right|]. split; [intros i Hi; now rewrite upd_neq by lia|].
      rewrite !upd_eq. split; [exact qz2_pos|]. intros [->|X]; [reflexivity|discriminate].
    - left. unfold left_end. cbn [Z.eqb Pos.eqb]. rewrite qdiv_total by exact N10. cbn [bind]. eexists. split; [reflexivity|]. split; [now left|].
      split; [intros i Hi; now rewrite upd_neq by lia|]. rewrite !upd_eq. split.
      + cbn [rB]. apply mul_pos; [exact qz2_pos|]. apply (gap_pos n); auto; lia.
      + intros _. cbn [rC]. now rewrite I2 by lia. }
  destruct Lt as [(d1 & -> & Hl & L0 & LB & LC)|(N1 & N2 & ->)]; cbn [bind].
  2:{ split; [reflexivity|]. unfold types_ok. split; intros H; exfalso; tauto. }
  assert (Rt : types_ok lt rt -> exists d2, right_end n x y lt rt rv' d1 = Ok d2 /\ (forall i, i < n - 1 -> d2 i = d1 i) /\
            (0 < rB (d2 (n - 1)%nat))%Qc /\ rA (d2 (n - 1)) = 0%Qc).
  { intros T. unfold right_end. destruct (Z.eqb_spec rt 2) as [->|D2].
    - eexists. split; [reflexivity|]. split; [intros i Hi; now rewrite upd_neq by lia|]. rewrite !upd_eq. split; [exact qz2_pos|].
      cbn [rA]. rewrite L0, I2 by lia. reflexivity.
    - destruct T as [->|[_ T]]; [|contradiction]. cbn [Z.eqb Pos.eqb]. rewrite qdiv_total by exact Nl. cbn [bind].
      eexists. split; [reflexivity|]. split; [intros i Hi; now rewrite upd_neq by lia|]. rewrite !upd_eq. split.
      + cbn [rB]. apply mul_pos; [exact qz2_pos|]. replace (n - 1) with (S (n - 2)) by lia. apply (gap_pos n); auto; lia.
      + cbn [rA]. rewrite L0, I2 by lia. reflexivity. }
  split; [|split].
  - intros T. unfold right_end. destruct (Z.eqb_spec rt 2) as [->|D2]; [exfalso; apply T; unfold types_ok; tauto|].
    destruct (Z.eqb_spec lt 1) as [->|D1]; [exfalso; apply T; now left|reflexivity].
  - intros T Z0. destruct (Rt T) as (d2 & -> & R0 & RB & RA). cbn [bind].
    apply back_total; [|lia]. intros i Hi. apply pos_nz. apply (diag_pos n x y d2); auto.
    + intros j H1 H2. rewrite R0, L0, I1 by lia. reflexivity.
    + rewrite R0 by lia. exact LB.
    + rewrite R0 by lia. auto.
    + rewrite RA. apply Qcle_refl.
  - intros T e. destruct (Rt T) as (d2 & -> & _). cbn [bind]. apply back_exn.
Qed.

Lemma fit_total n x y lt rt lv rv' st z : increasing n x ->
  solve_trid_system n x y lt rt lv rv' st = Ok z -> exists s, fit_cubic_spline n x y lt rt lv rv' st = Ok s.
Proof.
  intros Hx E. unfold fit_cubic_spline. rewrite E. cbn [bind].
  match goal with |- exists s, bind (forM ?m ?b ?i) _ = _ => destruct (forM_total (fun _ : arr (Qc * Qc) => True) m b i I) as (ac & -> & _) end.
  - intros i s Hi _. pose proof (gap_nz n x i Hx ltac:(lia)) as G. replace (i + 1) with (S i) by lia.
    rewrite !qdiv_total; [cbn [bind]; eauto|exact G|]. intros K. apply Qcmult_integral in K. destruct K as [K|K]; [|now apply G].
    apply (qz_nz 3 ltac:(discriminate) K).
  - cbn [bind]. eauto.
Qed.

Lemma fit_errors n x y lt rt lv rv' st : 2 <= n -> increasing n x ->
  (~ types_ok lt rt -> fit_cubic_spline n x y lt rt lv rv' st = Raise ValueError) /\
  (types_ok lt rt -> lv = 0%Qc \/ lt = 1%Z -> exists s, fit_cubic_spline n x y lt rt lv rv' st = Ok s) /\
  (types_ok lt rt -> (exists s, fit_cubic_spline n x y lt rt lv rv' st = Ok s) \/ fit_cubic_spline n x y lt rt lv rv' st = Raise ZeroDivision).
Proof.
  intros Hn Hx. destruct (solve_errors n x y lt rt lv rv' st Hn Hx) as (A & B & C). split; [|split].
  - intros T. unfold fit_cubic_spline. now rewrite (A T).
  - intros T Z0. destruct (B T Z0) as (z & E). eauto using fit_total.
  - intros T. destruct (solve_trid_system n x y lt rt lv rv' st) as [z|e] eqn:E; [left; eauto using fit_total|].
    right. unfold fit_cubic_spline. rewrite E. cbn [bind]. now rewrite (C T e).
Qed.

(* two equal knots: a division by zero *)
Lemma repeated_knot n x y lt rt lv rv' st i : S i < n -> types_ok lt rt -> x (S i) = x i ->
  fit_cubic_spline n x y lt rt lv rv' st = Raise ZeroDivision.
Proof.
  intros Hi T Hx.
  assert (Z0 : (x (S i) - x i = 0)%Qc) by (rewrite Hx; ring).
  assert (Zd : forall a, qdiv a (x (S i) - x i) = Raise ZeroDivision) by (intros a; unfold qdiv; now rewrite Z0).
  assert (XI : forall e, interior n x y = Raise e -> e = ZeroDivision).
  { intros e. unfold interior. match goal with |- forM ?m ?b ?s = _ -> _ => generalize s, m; set (body := b) end. intros s m. revert s.
    induction m as [|m IH]; intros s; cbn [forM]; [discriminate|]. destruct (forM m body s) as [d|e'] eqn:E; cbn [bind].
    - unfold body. cbv zeta. destruct (qdiv _ _) eqn:Q1; cbn [bind].
      + destruct (qdiv (y (S m) - _) _) eqn:Q2; cbn [bind]; [discriminate|]. intros X. injection X as <-. now apply qdiv_exn in Q2.
      + intros X. injection X as <-. now apply qdiv_exn in Q1.
    - intros X. injection X as <-. now apply (IH s). }
  unfold fit_cubic_spline, solve_trid_system. destruct (interior n x y) as [d|e] eqn:E0; cbn [bind].
  2:{ now rewrite (XI e eq_refl). }
  (* the interior loop succeeded: there are just two knots, since every gap of three or more is divided by *)
  destruct (Nat.le_gt_cases n 2) as [Hn|Hn].
  - assert (n = 2) by lia. subst n. assert (i = 0) by lia. subst i.
    assert (Q : forall b : arr Qc, forM (2 - 1) (fun i (ac : arr (Qc * Qc)) =>
      do! ai <- qdiv (b (i + 1) - b i) (qz 3 * (x (i + 1) - x i));
      do! s <- qdiv (y (i + 1) - y i) (x (i + 1) - x i);
      let next := i + 1 in
      Ok (upd ac i (ai, s - (qz 2 * b i + b next) * (x next - x i) / qz 3)%Qc)) (fun _ => (0%Qc, 0%Qc)) = Raise ZeroDivision).
    { intros b. cbn [Nat.sub forM bind Nat.add]. unfold qdiv at 1. rewrite Z0. replace (qz 3 * 0)%Qc with 0%Qc by ring. reflexivity. }
    unfold left_end. destruct T as [->|[-> ->]]; cbn [Z.eqb Pos.eqb].
    + rewrite Zd. reflexivity.
    + cbn [bind right_end Z.eqb Pos.eqb]. match goal with |- bind (back ?a ?b ?c) _ = _ => destruct (back a b c) as [z|e] eqn:Eb; cbn [bind] end.
      * rewrite Q. reflexivity.
      * now rewrite (back_exn _ _ _ _ Eb).
  - exfalso. unfold interior in E0. apply (fillS _ (inner_row_res x y)) in E0.
    + destruct E0 as [E1 _]. destruct (Nat.eq_dec i 0) as [->|D].
      * specialize (E1 1 ltac:(lia)). unfold inner_row_res in E1. cbn [Nat.add Nat.sub] in E1. rewrite Zd in E1. destruct (qdiv _ _) in E1; discriminate.
      * specialize (E1 i ltac:(lia)). unfold inner_row_res in E1. replace (i + 1) with (S i) in E1 by lia. rewrite Zd in E1. discriminate.
    + intros k s. cbv zeta. unfold inner_row_res. destruct (qdiv (y (S k + 1) - y (S k)) _); [|reflexivity]. cbn [bind].
      destruct (qdiv (y (S k) - y (S k - 1)) _); reflexivity.
Qed.

(* ---------- straight lines ---------- *)
Lemma line_moments n x y al be lt rt lv rv' st z : line_ends al lv rv' st lt rt -> 2 <= n -> increasing n x -> (forall i, i < n -> y i = (al * x i + be)%Qc) ->
  solve_trid_system n x y lt rt lv rv' st = Ok z -> forall i, i < n -> z i = 0%Qc.
Proof.
  intros LE Hn Hx Hy E. apply solve_ok in E; [|lia]. destruct E as (d & Eb & Di & D0 & D0' & Dn & _ & Dn').
  apply back_ok in Eb; [|lia]. destruct Eb as [ZN Z].
  assert (B0 : rv (d 0) = 0%Qc).
  { destruct LE as [(-> & _)|(-> & -> & _)]; [now rewrite D0|]. rewrite D0' by reflexivity. cbn [rv]. rewrite !Hy by lia. field. apply (gap_nz n x 0); auto; lia. }
  assert (BN : rv (d (n - 1)) = 0%Qc /\ (rC (d (n - 1)%nat) * z n = 0)%Qc).
  { destruct (Z.eq_dec rt 2%Z) as [E2|E2].
    - rewrite Dn by exact E2. cbn [rv rC]. split; [|ring]. destruct LE as [(_ & _ & _ & ->)|(_ & _ & [(_ & ->)|(F & _)])]; [reflexivity|reflexivity|contradiction].
    - rewrite Dn' by exact E2. cbn [rv rC]. destruct LE as [(_ & _ & F & _)|(_ & _ & [(F & _)|(_ & -> & ->)])]; [contradiction|contradiction|].
      split; [|rewrite ZN; ring]. rewrite !Hy by lia. replace (n - 1) with (S (n - 2)) by lia. field. apply (gap_nz n x (n - 2)); auto; lia. }
  destruct BN as [BN BC].
  destruct (sweep_ok n d) as [S0 S1].
  assert (V : forall i, i < n -> rv (d i) = 0%Qc).
  { intros i Hi. destruct (Nat.eq_dec i 0) as [->|A]; [exact B0|]. destruct (Nat.eq_dec i (n - 1)) as [->|B]; [exact BN|].
    rewrite Di by lia. cbn [inner_row rv]. destruct i as [|i]; [lia|]. replace (S i + 1) with (S (S i)) by lia. replace (S i - 1) with i by lia.
    rewrite !Hy by lia. field. split; apply (gap_nz n); auto; lia. }
  assert (W : forall i, i < n -> rv (sweep n d i) = 0%Qc).
  { induction i as [|i IH]; intros Hi; [rewrite S0; auto|]. rewrite S1 by lia. cbn [swept rv]. rewrite V, IH by lia. ring. }
  assert (CL : (rC (sweep n d (n - 1)%nat) * z n = 0)%Qc).
  { replace (n - 1) with (S (n - 2)) by lia. rewrite S1 by lia. cbn [swept rC]. replace (S (n - 2)) with (n - 1) by lia. exact BC. }
  assert (G : forall m i, i < n -> n - 1 - i = m -> z i = 0%Qc).
  { induction m as [|m IH]; intros i Hi Hm; destruct (Z i Hi) as [Hb ->]; rewrite W by auto.
    - replace i with (n - 1) in * by lia. replace (S (n - 1)) with n by lia. rewrite CL. field. exact Hb.
    - rewrite (IH (S i)) by lia. field. exact Hb. }
  intros i Hi. now apply (G (n - 1 - i) i).
Qed.

Lemma line_fit n x y al be lt rt lv rv' st s p : line_ends al lv rv' st lt rt -> 2 <= n -> increasing n x -> (forall i, i < n -> y i = (al * x i + be)%Qc) ->
  fit_cubic_spline n x y lt rt lv rv' st = Ok s ->
  value s 0 p = (al * p + be)%Qc /\ value s 1 p = al /\ value s 2 p = 0%Qc.
Proof.
  intros LE Hn Hx Hy E.
  assert (Ec : mc s (n - 1) = mc s (n - 2) /\ solve_trid_system n x y lt rt lv rv' st = Ok (mb s) /\ coefs n x y s).
  { destruct (fit_coefs n x y _ _ _ _ _ s Hn E) as [Eb C]. split; [|auto].
    pose proof (line_moments n x y al be lt rt lv rv' st (mb s) LE Hn Hx Hy Eb) as M.
    destruct C as (_ & _ & _ & Cc & _). destruct (Cc (n - 2) ltac:(lia)) as (G & Ea & _). replace (S (n - 2)) with (n - 1) in * by lia.
    rewrite !M in Ea by lia.
    unfold fit_cubic_spline in E. apply bindS in E. destruct E as (b & Eb' & E). apply bindS in E. destruct E as (ac & Eac & E).
    cbv zeta in E. injection E as <-. cbn [mc mb ma] in *. rewrite upd_eq, upd_neq by lia. cbn [snd].
    rewrite upd_neq in Ea by lia. rewrite Ea, M by lia. field. split; [exact G|apply qz_nz; discriminate]. }
  destruct Ec as (Ec & Eb & C). pose proof (line_moments n x y al be lt rt lv rv' st (mb s) LE Hn Hx Hy Eb) as M.
  assert (A0 : forall i, i < n -> ma s i = 0%Qc).
  { intros i Hi. destruct C as (_ & _ & _ & Cc & Cl). destruct (Nat.eq_dec i (n - 1)) as [->|D]; [exact Cl|].
    destruct (Cc i ltac:(lia)) as (G & Ea & _). rewrite Ea, !M by lia. field. split; [exact G|apply qz_nz; discriminate]. }
  assert (CA : forall i, i < n -> mc s i = al).
  { assert (CB : forall i, S i < n -> mc s i = al).
    { intros i Hi. destruct C as (_ & _ & _ & Cc & Cl). destruct (Cc i Hi) as (G & _ & ->). rewrite !M, !Hy by lia.
      field. split; [apply qz_nz; discriminate|exact G]. }
    intros i Hi. destruct (Nat.eq_dec i (n - 1)) as [->|D]; [rewrite Ec; apply CB; lia|apply CB; lia]. }
  set (j := searchsorted_right n x p - 1).
  assert (Hj : j < n).
  { unfold j, searchsorted_right. pose proof (filter_le (fun i => negb (Qc_ltb p (x i))) (seq 0 n)) as F. rewrite seq_length in F. lia. }
  pose proof C as (E1 & E2 & E3 & _).
  rewrite !value_poly by (unfold good_order; auto). rewrite E1, E3. fold j. unfold poly. cbn. rewrite A0, M, CA, E1, E2, Hy by exact Hj.
  split; [ring|split; ring].
Qed.

(* ---------- memory behind the array ---------- *)
Lemma last_slope n x y lt rt lv rv' st s : 2 <= n -> fit_cubic_spline n x y lt rt lv rv' st = Ok s ->
  let h := (x (n - 2)%nat - x (n - 1)%nat)%Qc in
  mc s (n - 1) = (qz 3 * ma s (n - 2)%nat * h * h + qz 2 * mb s (n - 2)%nat * h + mc s (n - 2)%nat)%Qc.
Proof.
  intros Hn E. unfold fit_cubic_spline in E. apply bindS in E. destruct E as (b & Eb' & E). apply bindS in E. destruct E as (ac & Eac & E).
  cbv zeta in E. injection E as <-. cbn [mc mb ma]. rewrite upd_eq, !upd_neq by lia. reflexivity.
Qed.
Lemma stray_free n x y lt lv rv' st st' s : 2 <= n -> increasing n x -> fit_cubic_spline n x y lt 2 lv rv' st = Ok s ->
  exists s', fit_cubic_spline n x y lt 2 lv rv' st' = Ok s' /\ forall o p, good_order o -> value s' o p = value s o p.
Proof.
  intros Hn Hx E. destruct (fit_coefs n x y _ _ _ _ _ s Hn E) as [Eb C].
  assert (B : exists z', solve_trid_system n x y lt 2 lv rv' st' = Ok z' /\ forall i, i < n -> z' i = mb s i).
  { pose proof (solve_ok n x y lt 2 lv rv' st (mb s) Hn Eb) as (d & Ebk & _ & _ & _ & Dn & _).
    specialize (Dn eq_refl). unfold solve_trid_system in *. 
    apply bindS in Eb. destruct Eb as (d0 & -> & Eb). cbn [bind]. apply bindS in Eb. destruct Eb as (d1 & -> & Eb). cbn [bind].
    unfold right_end in *. cbn [Z.eqb Pos.eqb bind] in *. refine (back_stray n st st' _ (mb s) ltac:(lia) _ Eb).
    match goal with |- rC (sweep n ?dd _) = _ => destruct (sweep_ok n dd) as [_ S1] end.
    specialize (S1 (n - 2) ltac:(lia)). replace (S (n - 2)) with (n - 1) in S1 by lia. rewrite S1. cbn [swept rC]. rewrite upd_eq. reflexivity. }
  destruct B as (z' & Ez & Hz). destruct (fit_total n x y lt 2 lv rv' st' z' Hx Ez) as (s' & E').
  exists s'. split; [exact E'|]. destruct (fit_coefs n x y _ _ _ _ _ s' Hn E') as [Eb' C'].
  assert (Hb : forall i, i < n -> mb s' i = mb s i) by (intros i Hi; rewrite Ez in Eb'; injection Eb' as <-; auto).
  pose proof (last_slope _ _ _ _ _ _ _ _ _ Hn E) as LS. pose proof (last_slope _ _ _ _ _ _ _ _ _ Hn E') as LS'. cbv zeta in LS, LS'.
  destruct C as (X & Y & N & Cc & Cl), C' as (X' & Y' & N' & Cc' & Cl').
  assert (Ha : forall i, i < n -> ma s' i = ma s i).
  { intros i Hi. destruct (Nat.eq_dec i (n - 1)) as [->|D]; [congruence|].
    destruct (Cc i ltac:(lia)) as (_ & -> & _), (Cc' i ltac:(lia)) as (_ & -> & _). now rewrite !Hb by lia. }
  assert (Hc1 : forall i, S i < n -> mc s' i = mc s i).
  { intros i Hi. destruct (Cc i ltac:(lia)) as (_ & _ & ->), (Cc' i ltac:(lia)) as (_ & _ & ->). now rewrite !Hb by lia. }
  assert (Hc : forall i, i < n -> mc s' i = mc s i).
  { intros i Hi. destruct (Nat.eq_dec i (n - 1)) as [->|D]; [|apply Hc1; lia]. rewrite LS, LS'. now rewrite Ha, Hb, Hc1 by lia. }
  intros o p Ho. rewrite !value_poly by exact Ho. rewrite X, X', N, N'.
  assert (Hj : searchsorted_right n x p - 1 < n).
  { unfold searchsorted_right. pose proof (filter_le (fun i => negb (Qc_ltb p (x i))) (seq 0 n)) as F. rewrite seq_length in F. lia. }
  unfold poly. rewrite X, X', Y, Y', Ha, Hb, Hc by exact Hj. reflexivity.
Qed.
