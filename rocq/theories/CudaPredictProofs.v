From Coq Require Import Reals Lra.
From Verif Require Import Prelude PreludeFacts LoopFacts CRing CplxR UtilModel PredictModel PredictSpec PredictProofs DaskRimeModel DaskRimeProofs CohSpec CudaPredictModel CudaPredictSpec.
Open Scope nat_scope.

Ltac rcs := intros; repeat match goal with x : car RC |- _ => destruct x end; cbn; f_equal; ring.
Lemma mulv_cmul (a b : RC) : mulv a b = cmul a b. Proof. reflexivity. Qed.
Lemma mulcv_cmul (a b : RC) : mulcv a b = cmul a (cconj b).
Proof. destruct a, b. unfold mulcv. cbn. f_equal; ring. Qed.
Lemma addv_cadd (a b : RC) : addv a b = cadd a b. Proof. reflexivity. Qed.
Lemma multiply1_cmul J K lane : multiply1 J K lane = cmul (J lane) (K lane).
Proof. reflexivity. Qed.
Lemma multiply_ct1_cmul J K lane : multiply_ct1 J K lane = cmul (J lane) (cconj (K lane)).
Proof. unfold multiply_ct1. destruct (J lane), (K lane). cbn. f_equal; ring. Qed.

Section Warp.
  Variables (m : bool) (nchan corrs start : nat) (und : regs).
  Hypothesis Hc : if m then corrs = 4 else corrs <> 4.
  Hypothesis Hp : 0 < corrs.
  Hypothesis Hs : exists b, start = 32 * b.
  Let act := fun lane => Nat.ltb (start + lane) (nchan * corrs).
  Definition rep (X : regs) (A : nat -> jones RC) : Prop :=
    forall lane, lane < 32 -> start + lane < nchan * corrs ->
      X lane = corr_at m 2 (A ((start + lane) / corrs)) ((start + lane) mod corrs).

  Lemma lane4 g c b : c < 4 -> (32 * b + (4 * g + c)) / 4 = 8 * b + g /\ (32 * b + (4 * g + c)) mod 4 = c.
  Proof.
    intros H. replace (32 * b + (4 * g + c)) with (c + (8 * b + g) * 4) by lia.
    rewrite Nat.div_add, Nat.mod_add, Nat.div_small, Nat.mod_small by lia. lia.
  Qed.
  Lemma odd4 g c : is_odd (4 * g + c) = c mod 2.
  Proof. unfold is_odd. replace (4 * g + c) with (c + (2 * g) * 2) by lia. now rewrite Nat.mod_add by lia. Qed.
  Lemma base4 g c : c < 4 -> base_idx (4 * g + c) = 4 * g.
  Proof. intros H. unfold base_idx. replace (4 * g + c) with (c + g * 4) by lia. rewrite Nat.div_add, Nat.div_small by lia. lia. Qed.
  Lemma split4 lane : exists g c, lane = 4 * g + c /\ c < 4.
  Proof. exists (lane / 4), (lane mod 4). split; [apply Nat.div_mod; lia|apply Nat.mod_upper_bound; lia]. Qed.

  Lemma rep4 X A g c : m = true -> rep X A -> c < 4 -> 4 * g < 32 -> start + 4 * g < nchan * corrs ->
    X (4 * g + c) = A (start / 4 + g) (c / 2) (c mod 2) /\ act (4 * g + c) = true.
  Proof.
    intros M HX C G B. pose proof Hc as Hc'. rewrite M in Hc'. destruct Hs as [b E].
    assert (B' : start + (4 * g + c) < nchan * corrs) by (rewrite Hc' in *; lia).
    split; [|unfold act; now apply Nat.ltb_lt].
    rewrite HX by lia. rewrite Hc', M, E. destruct (lane4 g c b C) as [-> ->].
    replace (32 * b) with ((8 * b) * 4) by lia. rewrite Nat.div_mul by lia. reflexivity.
  Qed.
  Lemma shfl_at x idx lane i : idx lane = i -> act i = true -> shfl act und x idx lane = x i.
  Proof. intros <- H. unfold shfl. now rewrite H. Qed.

  Ltac norm4 := cbn -[Nat.mul Nat.div Nat.modulo]; repeat (rewrite base4 by lia); repeat rewrite odd4;
    repeat match goal with |- context[?a mod 2] => is_ground a; let v := eval compute in (a mod 2) in change (a mod 2) with v end;
    cbn [Nat.eqb]; lia.
  Ltac fin4 A B := unfold addv, mulv, mulcv;
    repeat match goal with |- context[?a / 2] => is_ground a; let v := eval compute in (a / 2) in change (a / 2) with v end;
    repeat match goal with |- context[?a mod 2] => is_ground a; let v := eval compute in (a mod 2) in change (a mod 2) with v end;
    repeat match goal with |- context[A ?x ?i ?j] => destruct (A x i j) end;
    repeat match goal with |- context[B ?x ?i ?j] => destruct (B x i j) end; cbn; f_equal; ring.
  Lemma mult_rep X Y A B : rep X A -> rep Y B -> rep (jm_multiply corrs act und X Y) (fun f => jprod m (A f) (B f)).
  Proof.
    intros HX HY lane L V. unfold jm_multiply. destruct (Bool.bool_dec m true) as [M|M].
    - pose proof Hc as Hc'. rewrite M in Hc'. destruct (Nat.eqb_spec corrs 4) as [E4|]; [|congruence].
      destruct (split4 lane) as (g & c & -> & C). assert (G : 4 * g < 32) by lia. assert (V0 : start + 4 * g < nchan * corrs) by lia.
      assert (RX : forall d, d < 4 -> X (4 * g + d) = A (start / 4 + g) (d / 2) (d mod 2) /\ act (4 * g + d) = true) by (intros; now apply rep4).
      assert (RY : forall d, d < 4 -> Y (4 * g + d) = B (start / 4 + g) (d / 2) (d mod 2) /\ act (4 * g + d) = true) by (intros; now apply rep4).
      assert (EE : (start + (4 * g + c)) / corrs = start / 4 + g /\ (start + (4 * g + c)) mod corrs = c).
      { destruct Hs as [b E]. rewrite E4, E. destruct (lane4 g c b C) as [-> ->]. replace (32 * b) with ((8 * b) * 4) by lia. now rewrite Nat.div_mul by lia. }
      destruct EE as [-> ->]. clear V L.
      destruct (RX 0) as [X0 A0]; [lia|]. destruct (RX 1) as [X1 A1]; [lia|]. destruct (RX 2) as [X2 A2]; [lia|]. destruct (RX 3) as [X3 A3]; [lia|].
      destruct (RY 0) as [Y0 _]; [lia|]. destruct (RY 1) as [Y1 _]; [lia|]. destruct (RY 2) as [Y2 _]; [lia|]. destruct (RY 3) as [Y3 _]; [lia|].
      rewrite M. unfold corr_at, jprod, multiply4. cbn [csum].
      destruct c as [|[|[|[|c]]]]; [..|lia].
      + rewrite (shfl_at _ _ _ (4 * g + 1)) by (auto; norm4). rewrite (shfl_at _ _ (4 * g + 1) (4 * g + 2)) by (auto; norm4).
        rewrite (shfl_at _ _ _ (4 * g + 0)) by (auto; norm4).
        rewrite X0, X1, Y0, Y2. fin4 A B.
      + rewrite (shfl_at _ _ _ (4 * g + 0)) by (auto; norm4). rewrite (shfl_at _ _ (4 * g + 0) (4 * g + 1)) by (auto; norm4).
        rewrite (shfl_at _ _ _ (4 * g + 3)) by (auto; norm4).
        rewrite X0, X1, Y1, Y3. fin4 A B.
      + rewrite (shfl_at _ _ _ (4 * g + 3)) by (auto; norm4). rewrite (shfl_at _ _ (4 * g + 3) (4 * g + 2)) by (auto; norm4).
        rewrite (shfl_at _ _ _ (4 * g + 0)) by (auto; norm4).
        rewrite X2, X3, Y0, Y2. fin4 A B.
      + rewrite (shfl_at _ _ _ (4 * g + 2)) by (auto; norm4). rewrite (shfl_at _ _ (4 * g + 2) (4 * g + 1)) by (auto; norm4).
        rewrite (shfl_at _ _ _ (4 * g + 3)) by (auto; norm4).
        rewrite X2, X3, Y1, Y3. fin4 A B.
    - assert (M' : m = false) by (destruct m; congruence). pose proof Hc as Hc'. rewrite M' in Hc'.
      destruct (Nat.eqb_spec corrs 4); [congruence|]. rewrite multiply1_cmul, (HX _ L V), (HY _ L V). unfold corr_at, jprod. rewrite M'. reflexivity.
  Qed.
  Lemma mult_ct_rep X Y A B : rep X A -> rep Y B -> rep (jm_multiply_ct corrs act und X Y) (fun f => jprod m (A f) (jherm m (B f))).
  Proof.
    intros HX HY lane L V. unfold jm_multiply_ct. destruct (Bool.bool_dec m true) as [M|M].
    - pose proof Hc as Hc'. rewrite M in Hc'. destruct (Nat.eqb_spec corrs 4) as [E4|]; [|congruence].
      destruct (split4 lane) as (g & c & -> & C). assert (G : 4 * g < 32) by lia. assert (V0 : start + 4 * g < nchan * corrs) by lia.
      assert (RX : forall d, d < 4 -> X (4 * g + d) = A (start / 4 + g) (d / 2) (d mod 2) /\ act (4 * g + d) = true) by (intros; now apply rep4).
      assert (RY : forall d, d < 4 -> Y (4 * g + d) = B (start / 4 + g) (d / 2) (d mod 2) /\ act (4 * g + d) = true) by (intros; now apply rep4).
      assert (EE : (start + (4 * g + c)) / corrs = start / 4 + g /\ (start + (4 * g + c)) mod corrs = c).
      { destruct Hs as [b E]. rewrite E4, E. destruct (lane4 g c b C) as [-> ->]. replace (32 * b) with ((8 * b) * 4) by lia. now rewrite Nat.div_mul by lia. }
      destruct EE as [-> ->]. clear V L.
      destruct (RX 0) as [X0 A0]; [lia|]. destruct (RX 1) as [X1 A1]; [lia|]. destruct (RX 2) as [X2 A2]; [lia|]. destruct (RX 3) as [X3 A3]; [lia|].
      destruct (RY 0) as [Y0 _]; [lia|]. destruct (RY 1) as [Y1 _]; [lia|]. destruct (RY 2) as [Y2 _]; [lia|]. destruct (RY 3) as [Y3 _]; [lia|].
      rewrite M. unfold corr_at, jprod, jherm, multiply_ct4. cbn [csum].
      destruct c as [|[|[|[|c]]]]; [..|lia].
      + rewrite (shfl_at _ _ _ (4 * g + 1)) by (auto; norm4). rewrite (shfl_at _ _ (4 * g + 1) (4 * g + 1)) by (auto; norm4).
        rewrite (shfl_at _ _ _ (4 * g + 0)) by (auto; norm4).
        rewrite X0, X1, Y0, Y1. fin4 A B.
      + rewrite (shfl_at _ _ _ (4 * g + 0)) by (auto; norm4). rewrite (shfl_at _ _ (4 * g + 0) (4 * g + 2)) by (auto; norm4).
        rewrite (shfl_at _ _ _ (4 * g + 3)) by (auto; norm4).
        rewrite X0, X1, Y2, Y3. fin4 A B.
      + rewrite (shfl_at _ _ _ (4 * g + 3)) by (auto; norm4). rewrite (shfl_at _ _ (4 * g + 3) (4 * g + 1)) by (auto; norm4).
        rewrite (shfl_at _ _ _ (4 * g + 0)) by (auto; norm4).
        rewrite X2, X3, Y0, Y1. fin4 A B.
      + rewrite (shfl_at _ _ _ (4 * g + 2)) by (auto; norm4). rewrite (shfl_at _ _ (4 * g + 2) (4 * g + 2)) by (auto; norm4).
        rewrite (shfl_at _ _ _ (4 * g + 3)) by (auto; norm4).
        rewrite X2, X3, Y2, Y3. fin4 A B.
    - assert (M' : m = false) by (destruct m; congruence). pose proof Hc as Hc'. rewrite M' in Hc'.
      destruct (Nat.eqb_spec corrs 4); [congruence|]. rewrite multiply_ct1_cmul, (HX _ L V), (HY _ L V). unfold corr_at, jprod, jherm. rewrite M'. reflexivity.
  Qed.
End Warp.
