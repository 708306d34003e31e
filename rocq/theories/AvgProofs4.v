(* Consequences of the row mapper theorem; exact arithmetic; channel map. *)
From Coq Require Import Sorting.Sorted Sorting.Permutation QArith QArith.Qcanon Lqa.
From Verif Require Import Prelude PreludeFacts NumpyModel AvgModel AvgSpec QcArith QcFacts SortFacts
     AvgProofs AvgProofs2 AvgProofs3.
Close Scope Qc_scope. Close Scope Q_scope.
Open Scope nat_scope.

(* ---------- unique ---------- *)
Lemma unique_internal_full {A} (lt neq : A -> A -> bool) :
  order lt -> (forall x y, neq x y = true <-> x <> y) ->
  forall n data us ids inv counts,
  unique_internal lt neq n data = (us, ids, inv, counts) ->
  StronglySorted (fun x y => lt x y = true) us
  /\ (forall x, In x us <-> exists i, i < n /\ data i = x)
  /\ (forall i, i < n -> nth_error us (inv i) = Some (data i))
  /\ length ids = length us
  /\ (forall k p u, nth_error ids k = Some p -> nth_error us k = Some u ->
        p < n /\ data p = u /\ forall q, q < p -> data q <> u)
  /\ length counts = length us
  /\ (forall k u c, nth_error us k = Some u -> nth_error counts k = Some c ->
        count_is n (fun i => data i = u) c).
Proof.
  intros O Hneq n data us ids inv counts E.
  destruct (unique_internal_spec lt O neq Hneq n data us ids inv counts E)
    as (H1 & H2 & H3 & H4 & H5 & H6).
  split; [exact H1|]. split; [exact H2|]. split; [exact H3|].
  split; [now rewrite <- H4, map_length|]. split; [|split].
  - intros k p u Hp Hu. rewrite <- H4, nth_error_map, Hp in Hu. simpl in Hu. injection Hu as Hu.
    destruct (H5 p (nth_error_In _ _ Hp)) as [Hlt Hmin].
    split; [exact Hlt|]. split; [exact Hu|]. intros q Hq Eq.
    specialize (Hmin q ltac:(lia) ltac:(congruence)). lia.
  - rewrite H6. apply map_length.
  - intros k u c Hu Hc. rewrite H6, nth_error_map, Hu in Hc. simpl in Hc. injection Hc as <-.
    exists (filter (fun i => negb (neq (data i) u)) (seq 0 n)). split; [|split].
    + apply NoDup_filter, seq_NoDup.
    + intros i. rewrite filter_In, in_seq, negb_true_iff.
      rewrite (neq_false lt O neq Hneq). intuition lia.
    + unfold occ. clear. induction (seq 0 n) as [|x l IH]; [reflexivity|]. simpl.
      destruct (negb (neq (data x) u)); simpl; now rewrite IH.
Qed.

(* ---------- row mapper: iff for duplicates ---------- *)
Lemma row_mapper_ok_iff F (OK : arith_ok F) n time interval ant1 ant2 flag_row secs :
  int32_col n ant1 -> int32_col n ant2 -> sentinel_above F n time ->
  (exists out, row_mapper F n time interval ant1 ant2 flag_row secs = Ok out) <->
  rows_distinct n time ant1 ant2.
Proof.
  intros H1 H2 HS. split.
  - intros [out E] i j Hi Hj Et Es. destruct (Nat.eq_dec i j); [assumption|]. exfalso.
    rewrite (row_mapper_dup F OK n time interval ant1 ant2 flag_row secs i j) in E;
      auto; discriminate.
  - intros HD. destruct (row_mapper_main F OK n time interval ant1 ant2 flag_row secs) as [out [E _]];
      eauto.
Qed.

Lemma rows_distinct_dec F (OK : arith_ok F) n (time : arr (num F)) ant1 ant2 :
  rows_distinct n time ant1 ant2 \/
  exists i j, i < n /\ j < n /\ i <> j /\ time i = time j /\ same_baseline ant1 ant2 i j.
Proof.
  assert (Dec : forall m k, m <= n -> k <= n ->
     (forall i j, i < m -> j < k -> time i = time j -> same_baseline ant1 ant2 i j -> i = j) \/
     exists i j, i < n /\ j < n /\ i <> j /\ time i = time j /\ same_baseline ant1 ant2 i j).
  { induction m as [|m IHm]; intros k Hm Hk; [left; intros; lia|].
    induction k as [|k IHk]; [left; intros; lia|].
    destruct (IHm (S k) ltac:(lia) Hk) as [A|A]; [|now right].
    destruct (IHk ltac:(lia)) as [B|B]; [|now right].
    destruct (Nat.eq_dec m k) as [->|Hne].
    - left. intros i j Hi Hj E S.
      destruct (Nat.eq_dec i k) as [->|], (Nat.eq_dec j k) as [->|]; try reflexivity.
      + apply B; auto; lia.
      + apply A; auto; lia.
      + apply A; auto; lia.
    - destruct (neqb F (time m) (time k)) eqn:Ent.
      + left. intros i j Hi Hj E S.
        destruct (Nat.eq_dec i m) as [->|]; [|apply A; auto; lia].
        destruct (Nat.eq_dec j k) as [->|]; [|apply B; auto; lia].
        apply (aok_neq F OK) in Ent. contradiction.
      + assert (Et : time m = time k).
        { apply (neq_false (ltb F) (aok_order F OK) (neqb F) (aok_neq F OK)). exact Ent. }
        destruct (Z.eq_dec (ant1 m) (ant1 k)) as [E1|E1];
          [destruct (Z.eq_dec (ant2 m) (ant2 k)) as [E2|E2]|].
        * right. exists m, k. repeat split; auto; lia.
        * left. intros i j Hi Hj E [S1 S2].
          destruct (Nat.eq_dec i m) as [->|]; [|apply A; auto; try lia; now split].
          destruct (Nat.eq_dec j k) as [->|]; [|apply B; auto; try lia; now split]. contradiction.
        * left. intros i j Hi Hj E [S1 S2].
          destruct (Nat.eq_dec i m) as [->|]; [|apply A; auto; try lia; now split].
          destruct (Nat.eq_dec j k) as [->|]; [|apply B; auto; try lia; now split]. contradiction. }
  destruct (Dec n n (le_n _) (le_n _)) as [A|A]; [left|now right].
  intros i j Hi Hj. apply A; auto.
Qed.

Lemma row_mapper_raises_iff F (OK : arith_ok F) n time interval ant1 ant2 flag_row secs :
  int32_col n ant1 -> int32_col n ant2 -> sentinel_above F n time ->
  (row_mapper F n time interval ant1 ant2 flag_row secs = Raise ValueError <->
   exists i j, i < n /\ j < n /\ i <> j /\ time i = time j /\ same_baseline ant1 ant2 i j).
Proof.
  intros H1 H2 HS. split.
  - intros E. destruct (rows_distinct_dec F OK n time ant1 ant2) as [A|A]; [|exact A].
    exfalso. apply (row_mapper_ok_iff F OK n time interval ant1 ant2 flag_row secs) in A; auto.
    destruct A as [out A]. congruence.
  - intros (i & j & Hi & Hj & Hne & Et & Es).
    exact (row_mapper_dup F OK n time interval ant1 ant2 flag_row secs i j Hi Hj Hne Et Es).
Qed.

Lemma row_mapper_ok_map F (OK : arith_ok F) n time interval ant1 ant2 flag_row secs out :
  int32_col n ant1 -> int32_col n ant2 -> sentinel_above F n time ->
  row_mapper F n time interval ant1 ant2 flag_row secs = Ok out ->
  map_ok F n time interval ant1 ant2 flag_row secs out.
Proof.
  intros H1 H2 HS E.
  assert (HD : rows_distinct n time ant1 ant2)
    by (apply (row_mapper_ok_iff F OK n time interval ant1 ant2 flag_row secs); eauto).
  destruct (row_mapper_main F OK n time interval ant1 ant2 flag_row secs) as [out' [E' M]]; auto.
  rewrite E in E'. injection E' as <-. exact M.
Qed.

Section Cor.
  Context (F : arith) (OK : arith_ok F) (n : nat) (time interval : arr (num F))
          (ant1 ant2 : arr Z) (flag_row : option (arr Z)) (secs : num F).
  Context (out : row_map_output F)
          (H1 : int32_col n ant1) (H2 : int32_col n ant2) (HS : sentinel_above F n time)
          (E : row_mapper F n time interval ant1 ant2 flag_row secs = Ok out).

  Lemma rm_total :
    (forall i, i < n -> rm_map F out i < rm_out_rows F out) /\
    (forall k, k < rm_out_rows F out -> exists i, i < n /\ rm_map F out i = k).
  Proof.
    pose proof (row_mapper_ok_map F OK n time interval ant1 ant2 flag_row secs out H1 H2 HS E) as M.
    split; [apply (mo_range _ _ _ _ _ _ _ _ _ M)|].
    intros k Hk. destruct (mo_rows _ _ _ _ _ _ _ _ _ M k Hk) as [l [A1 [A2 [A3 _]]]].
    destruct l as [|i l]; [congruence|]. exists i. apply A3. now left.
  Qed.

  Lemma rm_baseline :
    forall i j, i < n -> j < n -> rm_map F out i = rm_map F out j -> same_baseline ant1 ant2 i j.
  Proof.
    pose proof (row_mapper_ok_map F OK n time interval ant1 ant2 flag_row secs out H1 H2 HS E) as M.
    exact (mo_bl _ _ _ _ _ _ _ _ _ M).
  Qed.

  Lemma rm_contig : forall i m j, i < n -> m < n -> j < n ->
       same_baseline ant1 ant2 i m -> same_baseline ant1 ant2 m j ->
       ltb F (time m) (time i) = false -> ltb F (time j) (time m) = false ->
       rm_map F out i = rm_map F out j -> rm_map F out m = rm_map F out i.
  Proof.
    pose proof (row_mapper_ok_map F OK n time interval ant1 ant2 flag_row secs out H1 H2 HS E) as M.
    exact (mo_contig _ _ _ _ _ _ _ _ _ M).
  Qed.

  Lemma rm_sorted :
    (forall k1 k2, k1 < k2 -> k2 < rm_out_rows F out ->
       ltb F (rm_time F out k2) (rm_time F out k1) = false) /\
    (forall i j, i < n -> j < n -> rm_map F out i < rm_map F out j ->
       rm_time F out (rm_map F out i) = rm_time F out (rm_map F out j) ->
       ~ same_baseline ant1 ant2 i j ->
       (0 <= ant1 i)%Z -> (0 <= ant1 j)%Z ->
       (ant2 i < ant2 j \/ (ant2 i = ant2 j /\ ant1 i < ant1 j))%Z).
  Proof.
    pose proof (row_mapper_ok_map F OK n time interval ant1 ant2 flag_row secs out H1 H2 HS E) as M.
    split; [exact (mo_sorted _ _ _ _ _ _ _ _ _ M)|].
    intros i j Hi Hj Hlt Et Hns P1 P2.
    destruct (mo_ties _ _ _ _ _ _ _ _ _ M i j Hi Hj Hlt Et) as [K|[K _]]; [|contradiction].
    unfold bl_key in K. pose proof (H1 i Hi) as A. pose proof (H1 j Hj) as B.
    unfold is_int32 in A, B. rewrite !Z.mod_small in K by lia. lia.
  Qed.

  Lemma rm_mean : forall k, k < rm_out_rows F out ->
    exists l, rows_by_time F n time (fun i => rm_map F out i = k) l /\ l <> [] /\
      rm_time F out k = col_mean F time l /\ rm_interval F out k = col_sum F interval l.
  Proof.
    pose proof (row_mapper_ok_map F OK n time interval ant1 ant2 flag_row secs out H1 H2 HS E) as M.
    intros k Hk. destruct (mo_rows _ _ _ _ _ _ _ _ _ M k Hk) as [l [A1 [A2 [A3 [A4 [A5 _]]]]]].
    exists l. repeat split; auto; now apply A3.
  Qed.

  Lemma rm_flags :
    match flag_row with
    | None => rm_flag_row F out = None
    | Some fr => exists ofr, rm_flag_row F out = Some ofr /\
        forall k, k < rm_out_rows F out ->
          (ofr k = 0 \/ ofr k = 1)%Z /\
          (ofr k <> 0%Z <-> forall i, i < n -> rm_map F out i = k -> fr i <> 0%Z)
    end \/ rm_out_rows F out = 0.
  Proof.
    pose proof (row_mapper_ok_map F OK n time interval ant1 ant2 flag_row secs out H1 H2 HS E) as M.
    destruct flag_row as [fr|] eqn:Ef; [|left; now apply (mo_noflag _ _ _ _ _ _ _ _ _ M)].
    destruct (rm_out_rows F out) as [|m] eqn:Eo; [now right|]. left.
    destruct (mo_rows _ _ _ _ _ _ _ _ _ M 0 ltac:(lia)) as [l [_ [_ [_ [_ [_ A]]]]]].
    destruct (A fr eq_refl) as [ofr [B _]]. exists ofr. split; [exact B|].
    intros k Hk. rewrite <- Eo in Hk.
    destruct (mo_rows _ _ _ _ _ _ _ _ _ M k Hk) as [l' [_ [_ [C1 [_ [_ C2]]]]]].
    destruct (C2 fr eq_refl) as [ofr' [D1 D2]].
    rewrite B in D1. injection D1 as <-.
    destruct D2 as [[D3 D4]|[D3 [i [D4 D5]]]]; rewrite D3.
    - split; [now right|]. split; [|discriminate]. intros _ i Hi Em. apply D4, C1. auto.
    - split; [now left|]. split; [congruence|]. intros H. exfalso.
      apply C1 in D4. destruct D4. apply (H i); auto.
  Qed.
End Cor.

(* ---------- exact arithmetic ---------- *)
(* every baseline has an earliest row *)
Lemma first_row_exists F (OK : arith_ok F) n (time : arr (num F)) ant1 ant2 r :
  r < n -> exists r0, first_row F n time ant1 ant2 r0 r.
Proof.
  intros Hr.
  assert (G : forall m, m <= n ->
    (forall j, j < m -> ~ same_baseline ant1 ant2 j r) \/
    exists r0, r0 < m /\ same_baseline ant1 ant2 r0 r /\
      forall j, j < m -> same_baseline ant1 ant2 j r -> ltb F (time j) (time r0) = false).
  { induction m as [|m IH]; intros Hm; [left; intros; lia|].
    assert (D : same_baseline ant1 ant2 m r \/ ~ same_baseline ant1 ant2 m r).
    { unfold same_baseline. destruct (Z.eq_dec (ant1 m) (ant1 r)), (Z.eq_dec (ant2 m) (ant2 r)); tauto. }
    destruct (IH ltac:(lia)) as [A|[r0 [A1 [A2 A3]]]].
    - destruct D as [D|D].
      + right. exists m. split; [lia|]. split; [exact D|]. intros j Hj S.
        destruct (Nat.eq_dec j m) as [->|]; [apply (ord_irrefl _ (aok_order F OK))|].
        exfalso. apply (A j); auto. lia.
      + left. intros j Hj. destruct (Nat.eq_dec j m) as [->|]; [exact D|apply A; lia].
    - right. destruct (ltb F (time m) (time r0)) eqn:El.
      + destruct D as [D|D].
        * exists m. split; [lia|]. split; [exact D|]. intros j Hj S.
          destruct (Nat.eq_dec j m) as [->|]; [apply (ord_irrefl _ (aok_order F OK))|].
          specialize (A3 j ltac:(lia) S).
          destruct (ltb F (time j) (time m)) eqn:Ej; [|reflexivity].
          rewrite (ord_trans _ (aok_order F OK) _ _ _ Ej El) in A3. discriminate.
        * exists r0. split; [lia|]. split; [exact A2|]. intros j Hj S.
          destruct (Nat.eq_dec j m) as [->|]; [contradiction|]. apply A3; auto. lia.
      + exists r0. split; [lia|]. split; [exact A2|]. intros j Hj S.
        destruct (Nat.eq_dec j m) as [->|]; [exact El|]. apply A3; auto. lia. }
  destruct (G n (le_n _)) as [A|A].
  - exfalso. apply (A r Hr). split; reflexivity.
  - exact A.
Qed.

Section Exact.
  Context (big : Qc) (n : nat) (time interval : arr Qc) (ant1 ant2 : arr Z)
          (flag_row : option (arr Z)) (secs w : Qc).
  Notation F := (QcF big).
  Context (out : row_map_output F)
          (H1 : int32_col n ant1) (H2 : int32_col n ant2) (HS : sentinel_above F n time)
          (Hw : forall i, i < n -> interval i = w)
          (E : row_mapper F n time interval ant1 ant2 flag_row secs = Ok out).

  Let half_w : Qc := (w * Q2Qc (1 # 2))%Qc.

  Lemma rm_width : forall i j, i < n -> j < n -> rm_map F out i = rm_map F out j ->
    (time i < time j)%Qc ->
    ((time j + half_w) - (time i - half_w) <= secs)%Qc.
  Proof.
    intros i j Hi Hj Em Hlt.
    pose proof (row_mapper_ok_map F (QcF_ok big) n time interval ant1 ant2 flag_row secs out H1 H2 HS E) as M.
    pose proof (rm_baseline F (QcF_ok big) n time interval ant1 ant2 flag_row secs out H1 H2 HS E i j Hi Hj Em) as SB.
    destruct (first_row_exists F (QcF_ok big) n time ant1 ant2 j Hj) as [r0 FR].
    destruct FR as [R1 [R2 R3]].
    assert (Hr0 : (time r0 <= time i)%Qc).
    { apply Qc_ltb_ge. apply (R3 i Hi). exact SB. }
    assert (Hne : r0 <> j).
    { intros ->. apply (Qcle_not_lt _ _ Hr0 Hlt). }
    pose proof (mo_open _ _ _ _ _ _ _ _ _ M r0 j Hj (conj R1 (conj R2 R3)) Hne) as [O1 _].
    assert (Ho : ltb F secs (sub F (high_of F time interval j) (low_of F time interval r0)) = false).
    { apply O1. exists i. split; [exact Hi|]. split; [exact Em|]. now apply Qc_ltb_lt. }
    apply Qc_ltb_ge in Ho. unfold high_of, low_of in Ho. cbn in Ho.
    rewrite (Hw j Hj), (Hw r0 R1) in Ho. fold half_w in Ho.
    change (((time j + half_w) - (time r0 - half_w) <= secs)%Qc) in Ho.
    clear -Ho Hr0. qc_lra.
  Qed.

  (* only the earliest bin of a baseline can hold more than one row *)
  Lemma rm_first_bin_only : forall i j r0, i < n -> j < n -> i <> j ->
    rm_map F out i = rm_map F out j ->
    first_row F n time ant1 ant2 r0 i ->
    rm_map F out i = rm_map F out r0.
  Proof.
    assert (G : forall i j r0, i < n -> j < n -> (time i < time j)%Qc ->
      rm_map F out i = rm_map F out j -> first_row F n time ant1 ant2 r0 i ->
      rm_map F out i = rm_map F out r0).
    { intros i j r0 Hi Hj Hlt Em [R1 [R2 R3]].
      pose proof (row_mapper_ok_map F (QcF_ok big) n time interval ant1 ant2 flag_row secs out H1 H2 HS E) as M.
      pose proof (rm_baseline F (QcF_ok big) n time interval ant1 ant2 flag_row secs out H1 H2 HS E i j Hi Hj Em) as SB.
      destruct (mo_rows _ _ _ _ _ _ _ _ _ M (rm_map F out i) (mo_range _ _ _ _ _ _ _ _ _ M i Hi))
        as [l [A1 [A2 [A3 _]]]].
      destruct l as [|m l]; [congruence|].
      destruct (proj1 (A3 m) (or_introl eq_refl)) as [Hm Emm].
      destruct (Nat.eq_dec r0 m) as [->|Hne]; [congruence|]. exfalso.
      assert (SBm : same_baseline ant1 ant2 m i).
      { apply (mo_bl _ _ _ _ _ _ _ _ _ M); auto. }
      assert (FRm : first_row F n time ant1 ant2 r0 m).
      { destruct SBm as [S1 S2]. destruct R2 as [T1 T2]. split; [exact R1|]. split.
        - split; congruence.
        - intros k Hk [K1 K2]. apply R3; auto. split; congruence. }
      assert (Hneg : ltb F secs (sub F (high_of F time interval m) (low_of F time interval r0)) = false).
      { assert (Hmj : (time m <= time j)%Qc).
        { assert (Hj' : In j (m :: l)) by (apply A3; auto).
          inversion A2 as [|? ? _ HF]; subst. destruct Hj' as [->|Hj']; [apply Qcle_refl|].
          rewrite Forall_forall in HF. specialize (HF j Hj'). apply Qc_ltb_lt in HF.
          now apply Qclt_le_weak. }
        assert (Hnej : r0 <> j).
        { intros ->. assert ((time j <= time i)%Qc).
          { apply Qc_ltb_ge. apply R3; auto. split; reflexivity. }
          apply (Qcle_not_lt _ _ H Hlt). }
        assert (FRj : first_row F n time ant1 ant2 r0 j).
        { destruct SB as [S1 S2]. destruct R2 as [T1 T2]. split; [exact R1|]. split.
          - split; congruence.
          - intros k Hk [K1 K2]. apply R3; auto. split; congruence. }
        pose proof (mo_open _ _ _ _ _ _ _ _ _ M r0 j Hj FRj Hnej) as [O1 _].
        assert (Ho : ltb F secs (sub F (high_of F time interval j) (low_of F time interval r0)) = false).
        { apply O1. exists i. split; [exact Hi|]. split; [exact Em|]. now apply Qc_ltb_lt. }
        apply Qc_ltb_ge in Ho. apply Qc_ltb_ge. unfold high_of, low_of in *. cbn in *.
        rewrite (Hw j Hj), (Hw r0 R1) in Ho. rewrite (Hw m Hm), (Hw r0 R1). fold half_w in Ho |- *.
        change (((time j + half_w) - (time r0 - half_w) <= secs)%Qc) in Ho.
        change (((time m + half_w) - (time r0 - half_w) <= secs)%Qc).
        clear -Ho Hmj. qc_lra. }
      apply (mo_open _ _ _ _ _ _ _ _ _ M r0 m Hm FRm Hne) in Hneg.
      destruct Hneg as [p [P1 [P2 P3]]].
      assert (Hp : In p (m :: l)) by (apply A3; split; congruence).
      inversion A2 as [|? ? _ HF]; subst. rewrite Forall_forall in HF.
      destruct Hp as [<-|Hp].
      - rewrite (ord_irrefl _ (aok_order F (QcF_ok big))) in P3. discriminate.
      - specialize (HF p Hp).
        rewrite (ord_asym _ (aok_order F (QcF_ok big)) _ _ HF) in P3. discriminate. }
    intros i j r0 Hi Hj Hne Em FR.
    pose proof (rm_baseline F (QcF_ok big) n time interval ant1 ant2 flag_row secs out H1 H2 HS E i j Hi Hj Em) as SB.
    destruct (Qc_dec (time i) (time j)) as [[Hlt|Hlt]|He].
    - exact (G i j r0 Hi Hj Hlt Em FR).
    - rewrite Em. apply (G j i r0); auto. destruct FR as [R1 [[T1 T2] R3]]. destruct SB as [S1 S2].
      split; [exact R1|]. split; [split; congruence|].
      intros k Hk [K1 K2]. apply R3; auto. split; congruence.
    - exfalso. apply Hne.
      apply (proj1 (row_mapper_ok_iff F (QcF_ok big) n time interval ant1 ant2 flag_row secs H1 H2 HS)
               (ex_intro _ out E)); auto.
  Qed.
End Exact.

(* ---------- channel mapper ---------- *)
Lemma channel_loop nchan bs : 0 < bs ->
  let '(m, cb, cnt) := for_ nchan (chan_step bs) ((fun _ => 0), 0, 0) in
  (forall c, c < nchan -> m c = c / bs) /\ cb = nchan / bs /\ cnt = nchan mod bs.
Proof.
  intros Hbs. induction nchan as [|k IH].
  - simpl. rewrite Nat.div_0_l, Nat.mod_0_l by lia. repeat split; intros; lia.
  - rewrite for_S. destruct (for_ k (chan_step bs) _) as [[m cb] cnt].
    destruct IH as [I1 [I2 I3]]. unfold chan_step.
    assert (Hm : forall v c, c < S k -> v = k / bs -> upd m k v c = c / bs).
    { intros v c Hc Hv. destruct (Nat.eq_dec c k) as [->|]; [rewrite upd_eq; exact Hv|].
      rewrite upd_neq by assumption. apply I1. lia. }
    pose proof (Nat.div_mod k bs ltac:(lia)) as D.
    pose proof (Nat.mod_upper_bound k bs ltac:(lia)) as B.
    destruct (Nat.eqb_spec (S cnt) bs) as [Ec|Ec].
    + assert (X : S k = bs * (S (k / bs)) + 0) by nia.
      split; [intros; apply Hm; congruence|]. split.
      * rewrite I2. apply (Nat.div_unique (S k) bs (S (k / bs)) 0); lia.
      * apply (Nat.mod_unique (S k) bs (S (k / bs)) 0); lia.
    + assert (X : S k = bs * (k / bs) + S (k mod bs)) by lia.
      split; [intros; apply Hm; congruence|]. split.
      * rewrite I2. apply (Nat.div_unique (S k) bs (k / bs) (S (k mod bs))); lia.
      * rewrite I3. apply (Nat.mod_unique (S k) bs (k / bs) (S (k mod bs))); lia.
Qed.

Lemma channel_mapper_spec nchan bs : 0 < bs ->
  let '(m, nb) := channel_mapper nchan bs in
  (forall c, c < nchan -> m c = c / bs) /\
  nb = (nchan + bs - 1) / bs /\
  (forall c, c < nchan -> m c < nb) /\
  (forall b, S b < nb -> count_is nchan (fun c => m c = b) bs) /\
  (forall b, S b = nb -> exists k, 1 <= k <= bs /\ count_is nchan (fun c => m c = b) k).
Proof.
  intros Hbs. unfold channel_mapper. pose proof (channel_loop nchan bs Hbs) as H.
  destruct (for_ nchan (chan_step bs) _) as [[m cb] cnt]. destruct H as [I1 [I2 I3]].
  pose proof (Nat.div_mod nchan bs ltac:(lia)) as D.
  pose proof (Nat.mod_upper_bound nchan bs ltac:(lia)) as B.
  set (nb := if Nat.ltb 0 cnt then S cb else cb).
  assert (Hnb : nb = (nchan + bs - 1) / bs).
  { unfold nb. destruct (Nat.ltb_spec 0 cnt) as [Hc|Hc].
    - apply (Nat.div_unique (nchan + bs - 1) bs (S cb) (cnt - 1)); nia.
    - apply (Nat.div_unique (nchan + bs - 1) bs cb (bs - 1)); nia. }
  assert (Hcount : forall b hi, b * bs <= nchan -> hi <= bs -> b * bs + hi <= nchan ->
            (b * bs + hi = nchan \/ hi = bs) ->
            count_is nchan (fun c => m c = b) hi).
  { intros b hi L1 L2 L3 L4. exists (seq (b * bs) hi). split; [apply seq_NoDup|].
    split; [|apply seq_length]. intros i. rewrite in_seq. split.
    - intros Hi. split; [lia|]. rewrite I1 by lia.
      symmetry. apply (Nat.div_unique i bs b (i - b * bs)); nia.
    - intros [Hi Em]. rewrite I1 in Em by exact Hi.
      pose proof (Nat.div_mod i bs ltac:(lia)) as Di.
      pose proof (Nat.mod_upper_bound i bs ltac:(lia)) as Bi. rewrite Em in Di. nia. }
  split; [exact I1|]. split; [exact Hnb|]. split; [|split].
  - intros c Hc. rewrite I1 by exact Hc. unfold nb. rewrite I2, I3.
    assert (c / bs <= nchan / bs) by (apply Nat.div_le_mono; lia).
    destruct (Nat.ltb_spec 0 (nchan mod bs)); [lia|].
    apply Nat.div_lt_upper_bound; [lia|]. nia.
  - intros b Hb. assert (Hle : S b <= nchan / bs).
    { unfold nb in Hb. rewrite I2 in Hb. destruct (Nat.ltb 0 cnt); lia. }
    apply Hcount; nia.
  - intros b Hb. unfold nb in Hb. destruct (Nat.ltb_spec 0 cnt) as [Hc|Hc].
    + exists cnt. split; [lia|]. apply Hcount; nia.
    + exists bs. split; [lia|]. apply Hcount; nia.
Qed.

(* ---------- in exact arithmetic the sentinel only has to exceed the times ---------- *)
Lemma Qc_of_nat_S k : (this (Qc_of_nat (S k)) == this (Qc_of_nat k) + 1)%Q.
Proof.
  unfold Qc_of_nat.
  change (this (Q2Qc (inject_Z (Z.of_nat (S k))))) with (Qred (inject_Z (Z.of_nat (S k)))).
  change (this (Q2Qc (inject_Z (Z.of_nat k)))) with (Qred (inject_Z (Z.of_nat k))).
  rewrite !Qred_correct, Nat2Z.inj_succ. unfold Z.succ. rewrite inject_Z_plus. reflexivity.
Qed.
Lemma Qc_of_nat_0 : (this (Qc_of_nat 0) == 0)%Q.
Proof. reflexivity. Qed.
Lemma Qc_of_nat_nonneg k : (0 <= this (Qc_of_nat k))%Q.
Proof. induction k; [rewrite Qc_of_nat_0; lra|rewrite Qc_of_nat_S; lra]. Qed.

Lemma Qc_sum_lt big l (s c : Q) :
  (forall x, In x l -> (x < big)%Qc) -> forall a : Qc,
  (this a <= this big * c)%Q ->
  (this (fold_left Qcplus l a) <= this big * (c + this (Qc_of_nat (length l))))%Q /\
  (l <> [] -> (this (fold_left Qcplus l a) < this big * (c + this (Qc_of_nat (length l))))%Q).
Proof.
  revert c. induction l as [|x l IH]; intros c H a Ha.
  - cbn [fold_left length]. split; [rewrite Qc_of_nat_0; lra|congruence].
  - cbn [fold_left length].
    assert (Hx : (this x < this big)%Q) by (apply (H x); now left).
    destruct l as [|y l].
    + cbn [fold_left length]. rewrite Qc_of_nat_S, Qc_of_nat_0, qc_plus. split; intros; lra.
    + destruct (IH (c + 1)%Q (fun z Hz => H z (or_intror Hz)) (a + x)%Qc) as [I1 I2].
      { rewrite qc_plus. lra. }
      specialize (I2 ltac:(discriminate)). rewrite Qc_of_nat_S. split; intros; lra.
Qed.

Lemma QcF_sentinel big n time :
  (forall i, i < n -> (time i < big)%Qc) -> sentinel_above (QcF big) n time.
Proof.
  intros H l Hl ND Hin. apply Qc_ltb_lt. unfold col_mean, col_sum. cbn.
  destruct (Qc_sum_lt big (map time l) 0%Q 0%Q) with (a := 0%Qc) as [_ I].
  - intros x Hx. apply in_map_iff in Hx. destruct Hx as [i [<- Hi]]. auto.
  - simpl. lra.
  - rewrite map_length in I.
    assert (Hm : map time l <> []) by (destruct l; [congruence|discriminate]).
    specialize (I Hm).
    assert (P : (0 < this (Qc_of_nat (length l)))%Q).
    { destruct l as [|i l]; [congruence|]. cbn [length]. rewrite Qc_of_nat_S.
      pose proof (Qc_of_nat_nonneg (length l)). lra. }
    unfold Qclt, Qcdiv. rewrite qc_mult.
    change (this (/ Qc_of_nat (length l))%Qc) with (Qred (/ this (Qc_of_nat (length l)))).
    rewrite Qred_correct.
    apply Qlt_shift_div_r with (a := this (fold_left Qcplus (map time l) 0%Qc)); [exact P|]. lra.
Qed.

(* row j joins the bin of an earlier row iff its end is within secs of the start of
   the earliest row of its baseline *)
Lemma rm_open_rule F (OK : arith_ok F) n time interval ant1 ant2 flag_row secs out :
  int32_col n ant1 -> int32_col n ant2 -> sentinel_above F n time ->
  row_mapper F n time interval ant1 ant2 flag_row secs = Ok out ->
  forall r0 r, r < n -> earliest F n time ant1 ant2 r0 r -> r0 <> r ->
   ((exists p, p < n /\ rm_map F out p = rm_map F out r /\ ltb F (time p) (time r) = true) <->
    ltb F secs (sub F (row_end F time interval r) (row_start F time interval r0)) = false).
Proof.
  intros H1 H2 HS E.
  exact (mo_open _ _ _ _ _ _ _ _ _ (row_mapper_ok_map F OK n time interval ant1 ant2 flag_row secs out H1 H2 HS E)).
Qed.

(* ---------- unique_baselines ---------- *)
Lemma bl_unkey_key a b : is_int32 a -> bl_unkey (bl_key a b) = (a, b).
Proof.
  intros Ha. unfold is_int32 in Ha. unfold bl_unkey, bl_key.
  pose proof (Z.mod_pos_bound a (2 ^ 32) ltac:(lia)) as B.
  rewrite Z.div_add_l, Z.div_small, Z.add_0_r by lia. f_equal.
  rewrite Z.add_comm, Z.mod_add, Z.mod_mod by lia. unfold to_int32.
  destruct (Z.lt_ge_cases a 0) as [L|L].
  - assert (E : (a mod 2 ^ 32 = a + 2 ^ 32)%Z).
    { rewrite <- (Z.mod_add a 1 (2 ^ 32)) by lia. apply Z.mod_small. lia. }
    rewrite E. destruct (Z.ltb_spec (a + 2 ^ 32) (2 ^ 31)); lia.
  - rewrite Z.mod_small by lia. destruct (Z.ltb_spec a (2 ^ 31)); lia.
Qed.

Lemma unique_baselines_spec n ant1 ant2 us ids inv counts :
  int32_col n ant1 -> int32_col n ant2 ->
  unique_baselines n ant1 ant2 = (us, ids, inv, counts) ->
  NoDup us
  /\ (forall p, In p us <-> exists i, i < n /\ (ant1 i, ant2 i) = p)
  /\ (forall i, i < n -> nth_error us (inv i) = Some (ant1 i, ant2 i))
  /\ length ids = length us
  /\ (forall k p u, nth_error ids k = Some p -> nth_error us k = Some u ->
        p < n /\ (ant1 p, ant2 p) = u /\ forall q, q < p -> (ant1 q, ant2 q) <> u)
  /\ length counts = length us
  /\ (forall k u c, nth_error us k = Some u -> nth_error counts k = Some c ->
        count_is n (fun i => (ant1 i, ant2 i) = u) c).
Proof.
  intros H1 H2. unfold unique_baselines.
  destruct (unique_internal Z.ltb zneqb n (fun r => bl_key (ant1 r) (ant2 r)))
    as [[[ret idx] inv'] cnt] eqn:EU. intros E. injection E as <- <- <- <-.
  destruct (unique_internal_full Z.ltb zneqb Zltb_order zneqb_spec n _ _ _ _ _ EU)
    as (A1 & A2 & A3 & A4 & A5 & A6 & A7).
  assert (U : forall i, i < n -> bl_unkey (bl_key (ant1 i) (ant2 i)) = (ant1 i, ant2 i)).
  { intros i Hi. apply bl_unkey_key. auto. }
  assert (Hret : forall z, In z ret -> exists i, i < n /\ bl_key (ant1 i) (ant2 i) = z /\
                                            bl_unkey z = (ant1 i, ant2 i)).
  { intros z Hz. apply A2 in Hz. destruct Hz as [i [Hi <-]]. exists i. auto. }
  assert (Inj : forall z i, In z ret -> i < n -> bl_unkey z = (ant1 i, ant2 i) ->
                            bl_key (ant1 i) (ant2 i) = z).
  { intros z i Hz Hi Ez. destruct (Hret z Hz) as [j [Hj [E1 E2]]]. congruence. }
  split; [|split; [|split; [|split; [|split; [|split]]]]].
  - clear -A1 Hret. induction A1 as [|z l S IH F]; [constructor|]. simpl. constructor.
    + intros C. apply in_map_iff in C. destruct C as [z' [Ez Hz']].
      rewrite Forall_forall in F. pose proof (F z' Hz') as L. apply Z.ltb_lt in L.
      destruct (Hret z (or_introl eq_refl)) as [i [Hi [E1 E2]]].
      destruct (Hret z' (or_intror Hz')) as [j [Hj [E3 E4]]].
      rewrite Ez, E2 in E4. injection E4 as E5 E6. rewrite E5, E6 in E1. lia.
    + apply IH. intros y Hy. apply Hret. now right.
  - intros p. rewrite in_map_iff. split.
    + intros [z [Ez Hz]]. destruct (Hret z Hz) as [i [Hi [E1 E2]]]. exists i. split; congruence.
    + intros [i [Hi Ep]]. exists (bl_key (ant1 i) (ant2 i)). split; [rewrite U; auto|].
      apply A2. exists i. auto.
  - intros i Hi. rewrite nth_error_map, (A3 i Hi). simpl. now rewrite U.
  - now rewrite map_length.
  - intros k p u Hp Hu. rewrite nth_error_map in Hu. destruct (nth_error ret k) as [z|] eqn:Ez; [|discriminate].
    simpl in Hu. injection Hu as <-. destruct (A5 k p z Hp Ez) as [B1 [B2 B3]].
    split; [exact B1|]. split; [rewrite <- B2; symmetry; now apply U|].
    intros q Hq Eq. apply (B3 q Hq). apply Inj; [eapply nth_error_In; eauto|lia|congruence].
  - now rewrite map_length.
  - intros k u c Hu Hc. rewrite nth_error_map in Hu. destruct (nth_error ret k) as [z|] eqn:Ez; [|discriminate].
    simpl in Hu. injection Hu as <-. destruct (A7 k z c Ez Hc) as [l [L1 [L2 L3]]].
    exists l. split; [exact L1|]. split; [|exact L3].
    pose proof (nth_error_In _ _ Ez) as Hz.
    intros i. rewrite L2. split; intros [Hi Ei]; (split; [exact Hi|]).
    + rewrite <- Ei. symmetry. now apply U.
    + apply Inj; auto.
Qed.
