(* The tridiagonal solver. *)
From Coq Require Import QArith QArith.Qcanon Lqa.
From Verif Require Import Prelude PreludeFacts LoopFacts QcArith QcFacts SplineModel SplineSpec SplineProofs.
Close Scope Q_scope. Close Scope Qc_scope.
Open Scope nat_scope.

Definition inner_row (x y : arr Qc) (i : nat) : row :=
  {| rA := third * (x i - x (i - 1)); rB := (qz 2 * third) * (x (i + 1) - x (i - 1)); rC := third * (x (i + 1) - x i);
     rv := ((y (i + 1)%nat - y i) / (x (i + 1)%nat - x i) - (y i - y (i - 1)%nat) / (x i - x (i - 1)%nat))%Qc |}.

Definition inner_row_res (x y : arr Qc) (i : nat) : res row :=
  do! r <- qdiv (y (i + 1) - y i) (x (i + 1) - x i);
  do! l <- qdiv (y i - y (i - 1)) (x i - x (i - 1));
  Ok {| rA := third * (x i - x (i - 1)); rB := (qz 2 * third) * (x (i + 1) - x (i - 1));
        rC := third * (x (i + 1) - x i); rv := r - l |}.

(* a loop that fills entries 1, 2, ... *)
Lemma fillS {A} n (f : nat -> res A) body s s' :
  (forall k s, body k s = do! v <- f (S k); Ok (upd s (S k) v)) -> forM n body s = Ok s' ->
  (forall i, 1 <= i <= n -> f i = Ok (s' i)) /\ (forall i, i = 0 \/ n < i -> s' i = s i).
Proof.
  intros Hb. revert s'. induction n as [|n IH]; intros s' E; cbn [forM] in E.
  - injection E as <-. split; [lia|reflexivity].
  - apply bindS in E. destruct E as (s1 & E1 & E). rewrite Hb in E. apply bindS in E. destruct E as (v & Ev & E). injection E as <-.
    destruct (IH _ E1) as [A1 A2]. split.
    + intros i Hi. destruct (Nat.eq_dec i (S n)) as [->|D]; [now rewrite upd_eq|]. rewrite upd_neq by auto. apply A1. lia.
    + intros i Hi. rewrite upd_neq by lia. apply A2. lia.
Qed.

Lemma interior_ok n x y d : interior n x y = Ok d ->
  (forall i, 1 <= i -> i < n - 1 -> d i = inner_row x y i) /\ (forall i, i = 0 \/ n - 1 <= i -> d i = zero_row).
Proof.
  intros E. unfold interior in E. apply (fillS _ (inner_row_res x y)) in E.
  - destruct E as [E1 E2]. split; intros i; [|intros Hi; apply E2; lia]. intros H1 H2.
    specialize (E1 i ltac:(lia)). unfold inner_row_res in E1. apply bindS in E1. destruct E1 as (r & Er & E1).
    apply bindS in E1. destruct E1 as (l & El & E1). injection E1 as <-. apply qdiv_ok in Er, El.
    destruct Er as [_ ->], El as [_ ->]. reflexivity.
  - intros k s. cbv zeta. unfold inner_row_res. destruct (qdiv (y (S k + 1) - y (S k)) _); [|reflexivity]. cbn [bind].
    destruct (qdiv (y (S k) - y (S k - 1)) _); reflexivity.
Qed.

Lemma gap_nz n x i : increasing n x -> S i < n -> (x (S i) - x i <> 0)%Qc.
Proof.
  intros H Hi E. specialize (H i Hi). replace (x (S i)) with (x i) in H; [now apply Qclt_not_eq in H|].
  replace (x i) with (x (S i) - (x (S i) - x i))%Qc by ring. rewrite E. ring.
Qed.

Lemma interior_total n x y : increasing n x -> exists d, interior n x y = Ok d.
Proof.
  intros H. unfold interior. destruct (forM_total (fun _ : arr row => True) (n - 2) (fun k d => let i := S k in
    do! r <- qdiv (y (i + 1) - y i) (x (i + 1) - x i);
    do! l <- qdiv (y i - y (i - 1)) (x i - x (i - 1));
    Ok (upd d i {| rA := third * (x i - x (i - 1)); rB := (qz 2 * third) * (x (i + 1) - x (i - 1));
                   rC := third * (x (i + 1) - x i); rv := r - l |})) (fun _ => zero_row) I) as (d & E & _).
  - intros k d Hk _. cbv zeta. replace (S k + 1) with (S (S k)) by lia. replace (S k - 1) with k by lia.
    rewrite !qdiv_total by (apply (gap_nz n); auto; lia). cbn [bind]. eauto.
  - exists d. exact E.
Qed.

(* ---------- sweep ---------- *)
Definition swept (prev cur : row) : row :=
  let w := (rA cur - rB prev)%Qc in
  {| rA := rA cur; rB := rB cur - w * rC prev; rC := rC cur; rv := rv cur - w * rv prev |}.

Lemma sweep_ok n d : sweep n d 0 = d 0 /\ (forall i, S i < n -> sweep n d (S i) = swept (sweep n d i) (d (S i))).
Proof.
  unfold sweep.
  assert (H : forall m, let s := for_ m (fun k (d : arr row) =>
    let i := S k in
    let prev := d (i - 1) in
    let w := (rA (d i) - rB prev)%Qc in
    upd d i {| rA := rA (d i); rB := rB (d i) - w * rC prev; rC := rC (d i); rv := rv (d i) - w * rv prev |}) d in
    s 0 = d 0 /\ (forall i, i < m -> s (S i) = swept (s i) (d (S i))) /\ (forall i, m < i -> s i = d i)).
  { induction m as [|m IH]; cbv zeta; [cbn [for_]; split; [reflexivity|]; split; [lia|reflexivity]|].
    rewrite for_S. cbv zeta in IH. set (s := for_ m _ d) in *. destruct IH as (I0 & I1 & I2).
    replace (S m - 1) with m by lia. split; [now rewrite upd_neq by lia|]. split.
    - intros i Hi. destruct (Nat.eq_dec i m) as [->|D].
      + rewrite upd_eq, upd_neq by lia. rewrite I2 by lia. reflexivity.
      + rewrite !upd_neq by lia. apply I1. lia.
    - intros i Hi. rewrite upd_neq by lia. apply I2. lia. }
  specialize (H (n - 1)). cbv zeta in H. destruct H as (H0 & H1 & _). split; [exact H0|]. intros i Hi. apply H1. lia.
Qed.

(* ---------- back substitution ---------- *)
Lemma back_ok n st d z : 1 <= n -> back n st d = Ok z ->
  z n = st /\ (forall i, i < n -> rB (d i) <> 0%Qc /\ z i = ((rv (d i) - rC (d i) * z (S i)) / rB (d i))%Qc).
Proof.
  intros Hn E. unfold back in E. apply bindS in E. destruct E as (l & El & E). apply qdiv_ok in El. destruct El as [Hl ->].
  revert E. match goal with |- forM n ?b ?s = _ -> _ => set (body := b); set (s0 := s) end. intros E.
  assert (G : forall m z, m <= n -> forM m body s0 = Ok z -> z n = st /\
     (forall i, n - m <= i -> i < n -> rB (d i) <> 0%Qc /\ z i = ((rv (d i) - rC (d i) * z (S i)) / rB (d i))%Qc)).
  { induction m as [|m IH]; intros z' Hm Ez; cbn [forM] in Ez.
    - injection Ez as <-. split; [|lia]. unfold s0. rewrite upd_neq by lia. now rewrite upd_eq.
    - apply bindS in Ez. destruct Ez as (z1 & E1 & Ez). destruct (IH z1 ltac:(lia) E1) as [I0 I1].
      unfold body in Ez. cbv zeta in Ez. apply bindS in Ez. destruct Ez as (q & Eq & Ez). injection Ez as <-.
      apply qdiv_ok in Eq. destruct Eq as [Hq ->]. split.
      + rewrite upd_neq by lia. exact I0.
      + intros i H1 H2. destruct (Nat.eq_dec i (n - 1 - m)) as [->|D].
        * split; [exact Hq|]. rewrite upd_eq, upd_neq by lia. replace (n - 1 - m + 1) with (S (n - 1 - m)) by lia. reflexivity.
        * rewrite !upd_neq by lia. apply I1; lia. }
  destruct (G n z (le_n n) E) as [G0 G1]. split; [exact G0|]. intros i Hi. apply G1; lia.
Qed.
Lemma back_total n st d : (forall i, i < n -> rB (d i) <> 0%Qc) -> 1 <= n -> exists z, back n st d = Ok z.
Proof.
  intros H Hn. unfold back. rewrite qdiv_total by (apply H; lia). cbn [bind].
  match goal with |- exists z, forM n ?b ?s = _ => destruct (forM_total (fun _ : arr Qc => True) n b s I) as (z & E & _) end; [|eauto].
  intros i s Hi _. cbv zeta. rewrite qdiv_total by (apply H; lia). cbn [bind]. eauto.
Qed.
Lemma back_exn n st d e : back n st d = Raise e -> e = ZeroDivision.
Proof.
  unfold back. destruct (qdiv _ _) eqn:E; cbn [bind]; [|intros X; injection X as <-; now apply qdiv_exn in E].
  match goal with |- forM n ?b ?s = _ -> _ => generalize s; set (body := b) end. intros s.
  assert (G : forall m, forM m body s = Raise e -> e = ZeroDivision); [|apply G].
  induction m as [|m IH]; cbn [forM]; [discriminate|]. destruct (forM m body s) as [z|e'] eqn:Ez; cbn [bind].
  - unfold body. cbv zeta. destruct (qdiv (rv _ - _) _) eqn:Q; cbn [bind]; [discriminate|]. intros X. injection X as <-. now apply qdiv_exn in Q.
  - intros X. injection X as <-. now apply IH.
Qed.

(* two reads outside z do not matter when the last upper entry is zero *)
Lemma back_stray n st st' d z : 1 <= n -> rC (d (n - 1)) = 0%Qc -> back n st d = Ok z ->
  exists z', back n st' d = Ok z' /\ (forall i, i < n -> z' i = z i).
Proof.
  intros Hn HC E. destruct (back_ok n st d z Hn E) as [_ Z].
  destruct (back_total n st' d) as (z' & E'); [intros i Hi; apply (Z i Hi)|exact Hn|]. exists z'. split; [exact E'|].
  destruct (back_ok n st' d z' Hn E') as [_ Z'].
  assert (G : forall m i, i < n -> n - 1 - i = m -> z' i = z i).
  { induction m as [|m IH]; intros i Hi Hm; destruct (Z i Hi) as [_ ->], (Z' i Hi) as [_ ->].
    - replace i with (n - 1) by lia. rewrite HC. qfield. apply (Z (n - 1)). lia.
    - rewrite (IH (S i)) by lia. reflexivity. }
  intros i Hi. now apply (G (n - 1 - i) i).
Qed.

(* ---------- the whole solver ---------- *)
Lemma solve_ok n x y lt rt lv rv' st z : 2 <= n -> solve_trid_system n x y lt rt lv rv' st = Ok z ->
  exists d, back n st (sweep n d) = Ok z /\
    (forall i, 1 <= i -> i < n - 1 -> d i = inner_row x y i) /\
    (lt = 2%Z -> d 0 = {| rA := 0%Qc; rB := qz 2; rC := lv; rv := 0%Qc |}) /\
    (lt = 1%Z -> d 0 = {| rA := 1 * (x 1 - x 0); rB := qz 2 * (x 1 - x 0); rC := 0%Qc; rv := qz 3 * (- lv + (y 1%nat - y 0%nat) / (x 1%nat - x 0%nat)) |}) /\
    (rt = 2%Z -> d (n - 1) = {| rA := 0%Qc; rB := qz 2; rC := 0%Qc; rv := rv' |}) /\
    (lt = 2%Z /\ rt = 2%Z \/ lt = 1%Z) /\
    (rt <> 2%Z -> d (n - 1) = {| rA := 0%Qc; rB := qz 2 * (x (n - 1)%nat - x (n - 2)%nat); rC := 1 * (x (n - 1)%nat - x (n - 2)%nat); rv := qz 3 * (rv' - (y (n - 1)%nat - y (n - 2)%nat) / (x (n - 1)%nat - x (n - 2)%nat)) |}).
Proof.
  intros Hn E. unfold solve_trid_system in E. apply bindS in E. destruct E as (d0 & E0 & E).
  apply bindS in E. destruct E as (d1 & E1 & E). apply bindS in E. destruct E as (d2 & E2 & E).
  exists d2. split; [exact E|]. apply interior_ok in E0. destruct E0 as [I1 I2].
  assert (L : (forall i, 1 <= i -> d1 i = d0 i) /\ (lt = 2%Z -> d1 0 = {| rA := 0%Qc; rB := qz 2; rC := lv; rv := 0%Qc |}) /\
     (lt = 1%Z -> d1 0 = {| rA := 1 * (x 1 - x 0); rB := qz 2 * (x 1 - x 0); rC := 0%Qc; rv := qz 3 * (- lv + (y 1%nat - y 0%nat) / (x 1%nat - x 0%nat)) |}) /\
     (lt = 2%Z \/ lt = 1%Z)).
  { unfold left_end in E1. destruct (Z.eqb_spec lt 2) as [->|D2].
    - injection E1 as <-. split; [intros i Hi; now rewrite upd_neq by lia|]. split; [|split; [discriminate|auto]].
      intros _. rewrite upd_eq, I2 by lia. reflexivity.
    - destruct (Z.eqb_spec lt 1) as [->|D1]; [|discriminate]. apply bindS in E1. destruct E1 as (s & Es & E1). injection E1 as <-.
      apply qdiv_ok in Es. destruct Es as [_ ->]. split; [intros i Hi; now rewrite upd_neq by lia|]. split; [discriminate|]. split; [|auto].
      intros _. rewrite upd_eq, I2 by lia. reflexivity. }
  destruct L as (L0 & L2 & L1 & L3).
  assert (R : (forall i, i < n - 1 -> d2 i = d1 i) /\ (rt = 2%Z -> d2 (n - 1) = {| rA := 0%Qc; rB := qz 2; rC := 0%Qc; rv := rv' |}) /\ (rt = 2%Z \/ lt = 1%Z) /\
     (rt <> 2%Z -> d2 (n - 1) = {| rA := 0%Qc; rB := qz 2 * (x (n - 1)%nat - x (n - 2)%nat); rC := 1 * (x (n - 1)%nat - x (n - 2)%nat); rv := qz 3 * (rv' - (y (n - 1)%nat - y (n - 2)%nat) / (x (n - 1)%nat - x (n - 2)%nat)) |})).
  { unfold right_end in E2. destruct (Z.eqb_spec rt 2) as [->|D2].
    - injection E2 as <-. split; [intros i Hi; now rewrite upd_neq by lia|]. split; [|split; [auto|congruence]].
      intros _. rewrite upd_eq, L0, I2 by lia. reflexivity.
    - destruct (Z.eqb_spec lt 1) as [->|D1]; [|discriminate]. apply bindS in E2. destruct E2 as (s & Es & E2). injection E2 as <-.
      split; [intros i Hi; now rewrite upd_neq by lia|]. split; [contradiction|]. split; [auto|].
      apply qdiv_ok in Es. destruct Es as [_ ->]. intros _. rewrite upd_eq, L0, I2 by lia. reflexivity. }
  destruct R as (R0 & R1 & R2 & R3).
  split; [intros i H1 H2; rewrite R0, L0, I1 by lia; reflexivity|].
  split; [intros H; rewrite R0 by lia; auto|]. split; [intros H; rewrite R0 by lia; auto|]. split; [exact R1|]. split; [tauto|exact R3].
Qed.

(* the first interior equation of a natural start *)
Lemma first_equation n x y rt rv' st z : 3 <= n -> increasing n x -> solve_trid_system n x y 2 rt 0%Qc rv' st = Ok z ->
  z 0 = 0%Qc /\ moment_equation x y (fun i => (qz 2 * z i)%Qc) 0.
Proof.
  intros Hn Hx E. apply solve_ok in E; [|lia]. destruct E as (d & Eb & Di & D0 & _).
  specialize (D0 eq_refl). apply back_ok in Eb; [|lia]. destruct Eb as [_ Z].
  destruct (sweep_ok n d) as [S0 S1].
  assert (Z0 : z 0 = 0%Qc).
  { destruct (Z 0 ltac:(lia)) as [_ ->]. rewrite S0, D0. cbn [rv rC rB]. qfield. }
  split; [exact Z0|]. destruct (Z 1 ltac:(lia)) as [Hb Z1]. rewrite (S1 0) in Hb, Z1 by lia. rewrite S0, D0 in Hb, Z1.
  rewrite (Di 1) in Hb, Z1 by lia. unfold swept, inner_row in Hb, Z1. cbn [rA rB rC rv Nat.add Nat.sub] in Hb, Z1.
  unfold moment_equation, secant, gap. rewrite Z0.
  pose proof (gap_nz n x 0 Hx ltac:(lia)) as G0. pose proof (gap_nz n x 1 Hx ltac:(lia)) as G1.
  assert (T : third = (1 / (1 + 1 + 1))%Qc) by now apply Qc_is_canon.
  set (r2 := ((y 2%nat - y 1%nat) / (x 2%nat - x 1%nat))%Qc) in *. set (r1 := ((y 1%nat - y 0%nat) / (x 1%nat - x 0%nat))%Qc) in *. clearbody r1 r2.
  rewrite T, qz2 in Hb.
  assert (Hb' : (x 2%nat - x 0%nat <> 0)%Qc).
  { intros K. apply Hb. rewrite K. ring. }
  rewrite Z1, T. qfield.
Qed.
