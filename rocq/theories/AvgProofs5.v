(* Proofs about the data averaging model. *)
From Coq Require Import Sorting.Sorted Sorting.Permutation.
From Verif Require Import Prelude PreludeFacts AvgModel AvgModel2 AvgSpec AvgSpec2.

(* ---------- list facts ---------- *)
Lemma filter_seq_S (p : nat -> bool) n :
  filter p (seq 0 (S n)) = filter p (seq 0 n) ++ (if p n then [n] else []).
Proof. rewrite seq_S, filter_app. simpl. reflexivity. Qed.

Lemma StronglySorted_seq n : forall s, StronglySorted Nat.lt (seq s n).
Proof.
  induction n as [|n IH]; intros s; simpl; constructor; auto.
  apply Forall_forall. intros x Hx. apply in_seq in Hx. unfold Nat.lt. lia.
Qed.
Lemma StronglySorted_filter {A} (R : A -> A -> Prop) p l :
  StronglySorted R l -> StronglySorted R (filter p l).
Proof.
  induction 1 as [|a l S IH F]; simpl; [constructor|].
  destruct (p a); [|exact IH]. constructor; [exact IH|].
  rewrite Forall_forall in *. intros x Hx. apply filter_In in Hx. apply F. tauto.
Qed.
Lemma ascending_filter n (P : nat -> Prop) p :
  (forall i, p i = true <-> P i) -> ascending n P (filter p (seq 0 n)).
Proof.
  intros H. split.
  - apply StronglySorted_filter, StronglySorted_seq.
  - intros i. rewrite filter_In, in_seq, H. intuition lia.
Qed.

Lemma StronglySorted_app {A} (R : A -> A -> Prop) l1 l2 :
  StronglySorted R l1 -> StronglySorted R l2 ->
  (forall x y, In x l1 -> In y l2 -> R x y) -> StronglySorted R (l1 ++ l2).
Proof.
  induction 1 as [|a l S IH F]; simpl; intros H2 H; [exact H2|].
  constructor.
  - apply IH; [exact H2|]. intros x y Hx Hy. apply H; auto.
  - apply Forall_forall. intros x Hx. apply in_app_or in Hx.
    rewrite Forall_forall in F. destruct Hx; [auto|]. apply H; auto.
Qed.

Definition grid (li lc : list nat) : list (nat * nat) :=
  flat_map (fun i => map (fun ch => (i, ch)) lc) li.
Lemma in_grid li lc i ch : In (i, ch) (grid li lc) <-> In i li /\ In ch lc.
Proof.
  unfold grid. rewrite in_flat_map. split.
  - intros [j [Hj Hc]]. apply in_map_iff in Hc. destruct Hc as [c [E Hc]].
    injection E as <- <-. auto.
  - intros [Hi Hc]. exists i. split; [exact Hi|]. apply in_map_iff. eauto.
Qed.
Lemma grid_sorted li lc :
  StronglySorted Nat.lt li -> StronglySorted Nat.lt lc -> StronglySorted pair_lt (grid li lc).
Proof.
  intros Hi Hc. induction Hi as [|a l S IH F]; simpl; [constructor|].
  apply StronglySorted_app.
  - clear -Hc. induction Hc as [|c lc S IH F]; simpl; constructor; auto.
    apply Forall_forall. intros p Hp. apply in_map_iff in Hp. destruct Hp as [d [<- Hd]].
    rewrite Forall_forall in F. right. split; [reflexivity|]. apply F. exact Hd.
  - exact IH.
  - intros x [i ch] Hx Hy. apply in_map_iff in Hx. destruct Hx as [c [<- _]].
    apply (in_grid l lc) in Hy. rewrite Forall_forall in F. left. apply F. tauto.
Qed.
Lemma grid_app l1 l2 lc : grid (l1 ++ l2) lc = grid l1 lc ++ grid l2 lc.
Proof. apply flat_map_app. Qed.

(* ---------- generic scatter loops ---------- *)
Lemma scatter1 {S} (sel : nat -> bool) (m : nat -> nat) (g : nat -> S -> S) n a0 k :
  for_ n (fun i a => if sel i then upd a (m i) (g i (a (m i))) else a) a0 k =
  fold_left (fun c i => g i c) (filter (fun i => sel i && Nat.eqb (m i) k) (seq 0 n)) (a0 k).
Proof.
  induction n as [|n IH]; [reflexivity|].
  rewrite for_S, filter_seq_S, fold_left_app.
  destruct (sel n) eqn:Es; simpl; [|exact IH].
  destruct (Nat.eqb_spec (m n) k) as [<-|Hne].
  - rewrite upd_eq. simpl. now rewrite IH.
  - rewrite upd_neq by congruence. simpl. exact IH.
Qed.

Lemma scatter_cell {S} ncorr R B (g : nat -> S -> S) (a : arr3 S) r f c :
  for_ ncorr (fun co a => upd3 a R B co (g co (a R B co))) a r f c =
  if Nat.eqb R r && Nat.eqb B f && Nat.ltb c ncorr then g c (a r f c) else a r f c.
Proof.
  induction ncorr as [|n IH].
  - simpl. now rewrite andb_false_r.
  - rewrite for_S. set (a' := for_ n _ a) in *.
    destruct (Nat.eqb_spec R r) as [<-|H1]; [destruct (Nat.eqb_spec B f) as [<-|H2]|].
    + destruct (Nat.eq_dec c n) as [->|Hc].
      * rewrite upd3_eq. rewrite IH. simpl.
        destruct (Nat.ltb_spec n n); [lia|]. destruct (Nat.ltb_spec n (Datatypes.S n)); [|lia].
        reflexivity.
      * rewrite upd3_neq by auto. rewrite IH. simpl.
        destruct (Nat.ltb_spec c n), (Nat.ltb_spec c (Datatypes.S n)); try reflexivity; lia.
    + rewrite upd3_neq by auto. rewrite IH. reflexivity.
    + rewrite upd3_neq by auto. rewrite IH. reflexivity.
Qed.

Lemma scatter_chan {S} nchan ncorr R (cmap : arr nat) (g : nat -> nat -> S -> S) (a : arr3 S) r f c :
  c < ncorr ->
  for_ nchan (fun ch a =>
     for_ ncorr (fun co a => upd3 a R (cmap ch) co (g ch co (a R (cmap ch) co))) a) a r f c =
  if Nat.eqb R r then
    fold_left (fun s ch => g ch c s) (filter (fun ch => Nat.eqb (cmap ch) f) (seq 0 nchan)) (a r f c)
  else a r f c.
Proof.
  intros Hc. induction nchan as [|n IH].
  - simpl. now destruct (Nat.eqb R r).
  - rewrite for_S, scatter_cell, IH, filter_seq_S, fold_left_app.
    destruct (Nat.ltb_spec c ncorr); [|lia]. rewrite andb_true_r.
    destruct (Nat.eqb R r); simpl; [|reflexivity].
    destruct (Nat.eqb (cmap n) f); reflexivity.
Qed.

Lemma scatter3 {S} n nchan ncorr (sel : nat -> bool) (rmap cmap : arr nat)
      (g : nat -> nat -> nat -> S -> S) (a0 : arr3 S) r f c :
  c < ncorr ->
  for_ n (fun i a => if sel i then
     for_ nchan (fun ch a =>
       for_ ncorr (fun co a =>
         upd3 a (rmap i) (cmap ch) co (g i ch co (a (rmap i) (cmap ch) co))) a) a
     else a) a0 r f c =
  fold_left (fun s p => g (fst p) (snd p) c s)
    (grid (filter (fun i => sel i && Nat.eqb (rmap i) r) (seq 0 n))
          (filter (fun ch => Nat.eqb (cmap ch) f) (seq 0 nchan))) (a0 r f c).
Proof.
  intros Hc. induction n as [|n IH]; [reflexivity|].
  rewrite for_S, filter_seq_S, grid_app, fold_left_app, <- IH.
  destruct (sel n); simpl; [|reflexivity].
  rewrite scatter_chan by exact Hc.
  destruct (Nat.eqb (rmap n) r); simpl; [|reflexivity].
  rewrite app_nil_r. clear IH. match goal with |- fold_left _ _ ?y = _ => generalize y end.
  induction (filter (fun ch => Nat.eqb (cmap ch) f) (seq 0 nchan)) as [|ch l IHl]; intros x; simpl;
    [reflexivity|]. apply IHl.
Qed.

(* ---------- row average ---------- *)
Section RowAvg.
  Context (K : farith).
  Notation V := (fnum K).
  Notation rsum := (lsum (fadd K) (f0 K)).

  Lemma inc_eq (a : arr V) i v : inc K a i v i = fadd K (a i) v.
  Proof. unfold inc. apply upd_eq. Qed.
  Lemma inc_neq (a : arr V) i j v : j <> i -> inc K a i v j = a j.
  Proof. unfold inc. apply upd_neq. Qed.

  Lemma for_inc nc (w : arr V) (a : arr V) co :
    for_ nc (fun co a => inc K a co (w co)) a co = if Nat.ltb co nc then fadd K (a co) (w co) else a co.
  Proof.
    induction nc as [|n IH]; [reflexivity|]. rewrite for_S.
    destruct (Nat.eq_dec co n) as [->|Hne].
    - rewrite inc_eq, IH. destruct (Nat.ltb_spec n n), (Nat.ltb_spec n (S n)); try lia. reflexivity.
    - rewrite inc_neq, IH by exact Hne.
      destruct (Nat.ltb_spec co n), (Nat.ltb_spec co (S n)); try lia; reflexivity.
  Qed.

  Lemma for_inc2 nc (w d : arr V) (a b : arr V) co :
    let p := for_ nc (fun co (p : arr V * arr V) =>
                        let '(sg, sw) := p in (inc K sg co (w co), inc K sw co (d co))) (a, b) in
    fst p co = (if Nat.ltb co nc then fadd K (a co) (w co) else a co) /\
    snd p co = (if Nat.ltb co nc then fadd K (b co) (d co) else b co).
  Proof.
    induction nc as [|n IH]; [split; reflexivity|]. rewrite for_S. cbv zeta in *.
    destruct (for_ n _ (a, b)) as [sg sw]. cbn [fst snd] in *. destruct IH as [I1 I2].
    destruct (Nat.eq_dec co n) as [->|Hne].
    - rewrite !inc_eq, I1, I2. destruct (Nat.ltb_spec n n), (Nat.ltb_spec n (S n)); try lia. auto.
    - rewrite !inc_neq, I1, I2 by exact Hne.
      destruct (Nat.ltb_spec co n), (Nat.ltb_spec co (S n)); try lia; auto.
  Qed.

  (* weight of row i, correlation co, in the sigma sums *)
  Definition rw (x : row_cols K) (i co : nat) : option V :=
    match in_weight K x with Some (_, w) => Some (w i co) | None => None end.

  Lemma row_add_spec x i r :
    let r' := row_add K x i r in
    rc_count K r' = S (rc_count K r) /\
    (forall u k, in_uvw K x = Some u -> k < 3 -> rc_uvw K r' k = fadd K (rc_uvw K r k) (u i k)) /\
    (forall t, in_tc K x = Some t -> rc_tc K r' = fadd K (rc_tc K r) (t i)) /\
    (forall e, in_exp K x = Some e -> rc_exp K r' = fadd K (rc_exp K r) (e i)) /\
    (forall nc w co, in_weight K x = Some (nc, w) -> co < nc ->
        rc_weight K r' co = fadd K (rc_weight K r co) (w i co)) /\
    (forall nc s co, in_sigma K x = Some (nc, s) -> co < nc ->
        rc_sigma K r' co = fadd K (rc_sigma K r co) (weighted2 K (s i co) (rw x i co)) /\
        rc_swsum K r' co = fadd K (rc_swsum K r co) (weight_or_1 K (rw x i co))).
  Proof.
    cbv zeta. unfold row_add.
    set (sp := match in_sigma K x with Some _ => _ | None => _ end).
    assert (Hsp : forall nc s co, in_sigma K x = Some (nc, s) -> co < nc ->
       fst sp co = fadd K (rc_sigma K r co) (weighted2 K (s i co) (rw x i co)) /\
       snd sp co = fadd K (rc_swsum K r co) (weight_or_1 K (rw x i co))).
    { intros nc s co E Hco. unfold sp. rewrite E.
      pose proof (for_inc2 nc (fun co => weighted2 K (s i co) (rw x i co))
                    (fun co => weight_or_1 K (rw x i co)) (rc_sigma K r) (rc_swsum K r) co) as H.
      cbv zeta in H. destruct (Nat.ltb_spec co nc); [|lia].
      erewrite for_ext; [exact H|]. intros k [sg sw] _. unfold rw, weighted2, weight_or_1, sq.
      destruct (in_weight K x) as [[nw w]|]; reflexivity. }
    destruct sp as [sg' sw']. cbn [fst snd] in Hsp.
    cbn [rc_count rc_uvw rc_tc rc_exp rc_weight rc_sigma rc_swsum].
    split; [reflexivity|]. split; [|split; [|split; [|split]]].
    - intros u k E Hk. rewrite E. destruct k as [|[|[|k]]]; [| | |lia];
        repeat (first [rewrite inc_eq | rewrite inc_neq by lia]); reflexivity.
    - intros t E. now rewrite E.
    - intros e E. now rewrite E.
    - intros nc w co E Hco. rewrite E, (for_inc nc (w i)). destruct (Nat.ltb_spec co nc); [reflexivity|lia].
    - exact Hsp.
  Qed.

  Lemma lsum_snoc {A} (f : A -> V) l a : rsum f (l ++ [a]) = fadd K (rsum f l) (f a).
  Proof. unfold lsum. now rewrite fold_left_app. Qed.

  Lemma row_fold_spec x l :
    let r := fold_left (fun c i => row_add K x i c) l (row_cell0 K) in
    rc_count K r = length l /\
    (forall u k, in_uvw K x = Some u -> k < 3 -> rc_uvw K r k = rsum (fun i => u i k) l) /\
    (forall t, in_tc K x = Some t -> rc_tc K r = rsum t l) /\
    (forall e, in_exp K x = Some e -> rc_exp K r = rsum e l) /\
    (forall nc w co, in_weight K x = Some (nc, w) -> co < nc ->
        rc_weight K r co = rsum (fun i => w i co) l) /\
    (forall nc s co, in_sigma K x = Some (nc, s) -> co < nc ->
        rc_sigma K r co = rsum (fun i => weighted2 K (s i co) (rw x i co)) l /\
        rc_swsum K r co = rsum (fun i => weight_or_1 K (rw x i co)) l).
  Proof.
    cbv zeta. induction l as [|i l IH] using rev_ind.
    - cbn. repeat split; reflexivity.
    - rewrite fold_left_app. cbn [fold_left].
      destruct (row_add_spec x i (fold_left (fun c i => row_add K x i c) l (row_cell0 K)))
        as (A1 & A2 & A3 & A4 & A5 & A6).
      destruct IH as (B1 & B2 & B3 & B4 & B5 & B6).
      split; [rewrite A1, B1, app_length; simpl; lia|].
      split; [intros u k E Hk; rewrite lsum_snoc, (A2 u k E Hk), (B2 u k E Hk); reflexivity|].
      split; [intros t E; rewrite lsum_snoc, (A3 t E), (B3 t E); reflexivity|].
      split; [intros t E; rewrite lsum_snoc, (A4 t E), (B4 t E); reflexivity|].
      split; [intros nc w co E Hc; rewrite lsum_snoc, (A5 nc w co E Hc), (B5 nc w co E Hc); reflexivity|].
      intros nc s co E Hc. destruct (A6 nc s co E Hc) as [C1 C2]. destruct (B6 nc s co E Hc) as [D1 D2].
      rewrite !lsum_snoc, C1, C2, D1, D2. split; reflexivity.
  Qed.

  Lemma for_sqrt nc (g : nat -> V -> V) (a : arr V) co :
    for_ nc (fun co sg => upd sg co (g co (sg co))) a co = if Nat.ltb co nc then g co (a co) else a co.
  Proof.
    induction nc as [|n IH]; [reflexivity|]. rewrite for_S.
    destruct (Nat.eq_dec co n) as [->|Hne].
    - rewrite upd_eq, IH. destruct (Nat.ltb_spec n n), (Nat.ltb_spec n (S n)); try lia. reflexivity.
    - rewrite upd_neq, IH by exact Hne.
      destruct (Nat.ltb_spec co n), (Nat.ltb_spec co (S n)); try lia; reflexivity.
  Qed.

  Lemma for_map {S} m (g : S -> S) (a : arr S) k :
    for_ m (fun k cs => upd cs k (g (cs k))) a k = if Nat.ltb k m then g (a k) else a k.
  Proof.
    induction m as [|n IH]; [reflexivity|]. rewrite for_S.
    destruct (Nat.eq_dec k n) as [->|Hne].
    - rewrite upd_eq, IH. destruct (Nat.ltb_spec n n), (Nat.ltb_spec n (Datatypes.S n)); try lia. reflexivity.
    - rewrite upd_neq, IH by exact Hne.
      destruct (Nat.ltb_spec k n), (Nat.ltb_spec k (Datatypes.S n)); try lia; reflexivity.
  Qed.

  Lemma flags_match_iff fr og i o : flags_match fr og i o = true <-> contributes fr og i o.
  Proof.
    unfold flags_match, contributes. destruct fr as [f|], og as [g|]; try tauto.
    apply Z.eqb_eq.
  Qed.

  (* separating the three components of the accumulation loop *)
  Lemma row_loop_split n rmap oflag ant1 ant2 flag_row x init :
    let s := for_ n (fun i (s : arr (row_cell K) * arr Z * arr Z) =>
                let '(cells, a1, a2) := s in
                let o := rmap i in
                let cells' := if flags_match flag_row oflag i o
                              then upd cells o (row_add K x i (cells o)) else cells in
                (cells', upd a1 o (ant1 i), upd a2 o (ant2 i)))
           ((fun _ => row_cell0 K), init, init) in
    (forall k, fst (fst s) k =
       fold_left (fun c i => row_add K x i c)
         (filter (fun i => flags_match flag_row oflag i (rmap i) && Nat.eqb (rmap i) k) (seq 0 n))
         (row_cell0 K)) /\
    (forall i, i < n -> exists j, j < n /\ rmap j = rmap i /\
        snd (fst s) (rmap i) = ant1 j /\ snd s (rmap i) = ant2 j).
  Proof.
    cbv zeta. split.
    - intros k. rewrite <- (scatter1 (fun i => flags_match flag_row oflag i (rmap i)) rmap
                              (fun i c => row_add K x i c) n (fun _ => row_cell0 K) k).
      generalize (row_cell0 K). intros c0. revert k. induction n as [|n IH]; intros k; [reflexivity|].
      rewrite !for_S. destruct (for_ n _ (_, init, init)) as [[cells a1] a2] eqn:E.
      cbn [fst] in *. destruct (flags_match flag_row oflag n (rmap n)); [|apply IH].
      unfold upd. destruct (Nat.eqb k (rmap n)); [|apply IH]. now rewrite IH.
    - induction n as [|n IH]; intros i Hi; [lia|].
      rewrite for_S. destruct (for_ n _ (_, init, init)) as [[cells a1] a2] eqn:E.
      cbn [fst snd] in *.
      destruct (Nat.eq_dec (rmap i) (rmap n)) as [Em|Em].
      + exists n. rewrite Em, !upd_eq. auto.
      + destruct (IH i) as [j [J1 [J2 J3]]].
        { assert (i <> n) by congruence. lia. }
        exists j. rewrite !upd_neq by exact Em. auto.
  Qed.

  Theorem row_average_spec n out_rows rmap oflag ant1 ant2 flag_row x init :
    (forall i j, i < n -> j < n -> rmap i = rmap j -> same_baseline ant1 ant2 i j) ->
    let out := row_average K n out_rows rmap oflag ant1 ant2 flag_row x init in
    (forall i, i < n -> rmap i < out_rows ->
       ra_ant1 K out (rmap i) = ant1 i /\ ra_ant2 K out (rmap i) = ant2 i) /\
    (forall k, k < out_rows -> exists l,
       ascending n (fun i => rmap i = k /\ contributes flag_row oflag i k) l /\
       (l <> [] ->
        (forall u c, in_uvw K x = Some u -> c < 3 ->
           rc_uvw K (ra_cells K out k) c = fdivn K (rsum (fun i => u i c) l) (length l)) /\
        (forall t, in_tc K x = Some t ->
           rc_tc K (ra_cells K out k) = fdivn K (rsum t l) (length l)) /\
        (forall nc s co, in_sigma K x = Some (nc, s) -> co < nc ->
           let num := rsum (fun i => weighted2 K (s i co) (rw x i co)) l in
           let den := rsum (fun i => weight_or_1 K (rw x i co)) l in
           rc_sigma K (ra_cells K out k) co =
             fsqrt K (if fnonzero K den then fdiv K num (sq K den) else num))) /\
       (forall e, in_exp K x = Some e -> rc_exp K (ra_cells K out k) = rsum e l) /\
       (forall nc w co, in_weight K x = Some (nc, w) -> co < nc ->
           rc_weight K (ra_cells K out k) co = rsum (fun i => w i co) l)).
  Proof.
    intros HB. cbv zeta. unfold row_average.
    pose proof (row_loop_split n rmap oflag ant1 ant2 flag_row x init) as H. cbv zeta in H.
    destruct (for_ n _ _) as [[cells a1] a2]. cbn [fst snd] in H. destruct H as [H1 H2].
    cbn [ra_ant1 ra_ant2 ra_cells]. split.
    - intros i Hi _. destruct (H2 i Hi) as [j [J1 [J2 [J3 J4]]]]. rewrite J3, J4.
      destruct (HB j i J1 Hi J2). auto.
    - intros k Hk. rewrite for_map. destruct (Nat.ltb_spec k out_rows); [|lia].
      set (l := filter (fun i => flags_match flag_row oflag i (rmap i) && Nat.eqb (rmap i) k) (seq 0 n)).
      exists l. split.
      { apply ascending_filter. intros i. rewrite andb_true_iff, Nat.eqb_eq, flags_match_iff.
        intuition congruence. }
      rewrite H1. fold l.
      destruct (row_fold_spec x l) as (B1 & B2 & B3 & B4 & B5 & B6). cbv zeta in *.
      set (r := fold_left _ l _) in *.
      unfold row_norm. rewrite B1.
      destruct (Nat.ltb_spec 0 (length l)) as [Hl|Hl].
      + cbn [rc_uvw rc_tc rc_sigma rc_exp rc_weight]. split; [|split; auto].
        intros _. split; [|split].
        * intros u c E Hc. rewrite E.
          destruct c as [|[|[|c]]]; [| | |lia];
            repeat (first [rewrite upd_eq | rewrite upd_neq by lia]); rewrite (B2 u _ E) by lia; reflexivity.
        * intros t E. rewrite E, (B3 t E). reflexivity.
        * intros nc s co E Hc. rewrite E.
          destruct (B6 nc s co E Hc) as [C1 C2].
          rewrite (for_sqrt nc (fun co v => fsqrt K (if fnonzero K (rc_swsum K r co)
                     then fdiv K v (fmul K (rc_swsum K r co) (rc_swsum K r co)) else v))).
          destruct (Nat.ltb_spec co nc); [|lia]. rewrite C1, C2. reflexivity.
      + split; [|split; auto]. intros Hne. destruct l; [congruence|simpl in Hl; lia].
  Qed.
End RowAvg.

(* ---------- row/channel average ---------- *)
Section Cells.
  Context (K : farith).
  Notation V := (fnum K).
  Notation C := (cnum K).
  Notation rsum := (lsum (fadd K) (f0 K)).
  Notation csum := (lsum (cadd K) (c0 K)).

  Lemma is_chan_flagged_iff x i ch co : is_chan_flagged K x i ch co = true <-> sample_flagged K x i ch co.
  Proof.
    unfold is_chan_flagged, sample_flagged. destruct (in_flag K x) as [f|]; [|split; [discriminate|tauto]].
    rewrite negb_true_iff, Z.eqb_neq. tauto.
  Qed.

  Lemma bank_fold_spec x co (l : list (nat * nat)) :
    let b := fold_left (fun s p => bank_add K x (fst p) (snd p) co s) l (bank0 K) in
    let w p := sample_weight K x (fst p) (snd p) co in
    b_count K b = length l /\
    (forall v, in_vis K x = Some v ->
       b_vis K b = csum (fun p => weighted K (v (fst p) (snd p) co) (w p)) l /\
       b_vwsum K b = rsum (fun p => weight_or_1 K (w p)) l) /\
    (forall ws, in_wspec K x = Some ws -> b_wspec K b = rsum (fun p => ws (fst p) (snd p) co) l) /\
    (forall s, in_sspec K x = Some s ->
       b_sspec K b = rsum (fun p => weighted2 K (s (fst p) (snd p) co) (w p)) l /\
       b_swsum K b = rsum (fun p => weight_or_1 K (w p)) l).
  Proof.
    cbv zeta. induction l as [|p l IH] using rev_ind.
    - cbn. repeat split; reflexivity.
    - rewrite fold_left_app. cbn [fold_left].
      set (b := fold_left _ l _) in *. destruct IH as (B1 & B2 & B3 & B4).
      unfold lsum in *. unfold bank_add, sample_weight, weighted, weight_or_1, weighted2, sq in *.
      rewrite app_length. simpl length.
      destruct (in_wspec K x) as [ws|], (in_rweight K x) as [rw|],
        (in_vis K x) as [v|], (in_sspec K x) as [s|];
      cbn [b_count b_vis b_vwsum b_wspec b_sspec b_swsum];
      (split; [rewrite B1; lia|split; [|split]]);
      try (intros ? E; discriminate E);
      intros y E; injection E as <-; rewrite ?fold_left_app; cbn [fold_left];
      try (rewrite (B3 _ eq_refl); reflexivity);
      try (destruct (B2 _ eq_refl) as [E1 E2]; rewrite E1, E2; split; reflexivity);
      try (destruct (B4 _ eq_refl) as [E1 E2]; rewrite E1, E2; split; reflexivity).
  Qed.

  Lemma cell_fold_split x co (l : list (nat * nat)) (c0 : cell K) :
    fold_left (fun s p => cell_add K x (fst p) (snd p) co s) l c0 =
    (fold_left (fun s p => bank_add K x (fst p) (snd p) co s)
       (filter (fun p => negb (is_chan_flagged K x (fst p) (snd p) co)) l) (fst c0),
     fold_left (fun s p => bank_add K x (fst p) (snd p) co s)
       (filter (fun p => is_chan_flagged K x (fst p) (snd p) co) l) (snd c0)).
  Proof.
    revert c0. induction l as [|p l IH]; intros [u f]; [reflexivity|].
    cbn [fold_left filter]. unfold cell_add at 2.
    destruct (is_chan_flagged K x (fst p) (snd p) co); simpl negb; cbn [fst snd fold_left];
      rewrite IH; reflexivity.
  Qed.

  (* per-cell loops that may raise *)
  Lemma forM_cells1 {S} m (g : nat -> res S) (a : arr S) :
    (forall c, c < m -> exists v, g c = Ok v) ->
    exists o, forM m (fun c o => do! v <- g c; Ok (upd o c v)) a = Ok o /\
      forall c, (c < m -> g c = Ok (o c)) /\ (m <= c -> o c = a c).
  Proof.
    induction m as [|m IH]; intros H.
    - exists a. split; [reflexivity|]. intros c. split; [lia|auto].
    - destruct IH as [o [E Ho]]; [intros; apply H; lia|].
      destruct (H m ltac:(lia)) as [v Ev].
      cbn [forM]. rewrite E. cbn [bind]. rewrite Ev. cbn [bind].
      eexists. split; [reflexivity|]. intros c. destruct (Nat.eq_dec c m) as [->|Hne].
      + rewrite upd_eq. split; [auto|lia].
      + rewrite upd_neq by exact Hne. destruct (Ho c) as [H1 H2]. split; intros; [apply H1; lia|apply H2; lia].
  Qed.

  Lemma forM_Raise {S} m body (s : S) k e :
    k < m -> (forall s', body k s' = Raise e) -> (forall j s', j < k -> exists s'', body j s' = Ok s'') ->
    forM m body s = Raise e.
  Proof.
    intros Hk Hr Hj.
    assert (P : exists s', forM k body s = Ok s').
    { clear Hk Hr. induction k as [|k IH]; [exists s; reflexivity|].
      destruct IH as [s' E]; [intros; apply Hj; lia|]. cbn [forM]. rewrite E. cbn [bind].
      apply Hj. lia. }
    destruct P as [s' E].
    assert (E1 : forM (Datatypes.S k) body s = Raise e) by (cbn [forM]; rewrite E; cbn [bind]; apply Hr).
    clear -Hk E1. induction m as [|m IH]; [lia|].
    destruct (Nat.eq_dec k m) as [->|Hne]; [exact E1|].
    cbn [forM]. rewrite IH by lia. reflexivity.
  Qed.

  Definition norm_corr ncorr (a : arr3 (cell K)) r f (o : arr3 (out_cell K)) :=
    forM ncorr (fun c o => do! v <- cell_norm K (a r f c); Ok (upd3 o r f c v)) o.

  Lemma norm_corr_ok m (a : arr3 (cell K)) r f o o' :
    norm_corr m a r f o = Ok o' ->
    (forall c, c < m -> cell_norm K (a r f c) = Ok (o' r f c)) /\
    (forall r' f' c', (r' <> r \/ f' <> f \/ m <= c') -> o' r' f' c' = o r' f' c').
  Proof.
    unfold norm_corr. intros E.
    apply (forM_inv_ok (fun k o' =>
      (forall c, c < k -> cell_norm K (a r f c) = Ok (o' r f c)) /\
      (forall r' f' c', (r' <> r \/ f' <> f \/ k <= c') -> o' r' f' c' = o r' f' c'))
      m _ o o') in E; [exact E| |].
    - split; [intros; lia|auto].
    - intros k s1 s2 Hk [I1 I2] Es. destruct (cell_norm K (a r f k)) as [v|] eqn:Ev; [|discriminate].
      cbn [bind] in Es. injection Es as <-. split.
      + intros c Hc. destruct (Nat.eq_dec c k) as [->|Hne]; [rewrite upd3_eq; exact Ev|].
        rewrite upd3_neq by auto. apply I1. lia.
      + intros r' f' c' H. rewrite upd3_neq; [apply I2; lia|]. lia.
  Qed.

  Definition norm_chan ochan ncorr (a : arr3 (cell K)) r (o : arr3 (out_cell K)) :=
    forM ochan (fun f o => norm_corr ncorr a r f o) o.
  Lemma norm_chan_ok m ncorr (a : arr3 (cell K)) r o o' :
    norm_chan m ncorr a r o = Ok o' ->
    (forall f c, f < m -> c < ncorr -> cell_norm K (a r f c) = Ok (o' r f c)) /\
    (forall r' f' c', r' <> r -> o' r' f' c' = o r' f' c').
  Proof.
    unfold norm_chan. intros E.
    apply (forM_inv_ok (fun k o' =>
      (forall f c, f < k -> c < ncorr -> cell_norm K (a r f c) = Ok (o' r f c)) /\
      (forall r' f' c', r' <> r -> o' r' f' c' = o r' f' c')) m _ o o') in E; [exact E| |].
    - split; [intros; lia|auto].
    - intros k s1 s2 Hk [I1 I2] Es. apply norm_corr_ok in Es. destruct Es as [E1 E2]. split.
      + intros f c Hf Hc. destruct (Nat.eq_dec f k) as [->|Hne]; [auto|].
        rewrite E2 by auto. apply I1; lia.
      + intros r' f' c' H. rewrite E2 by auto. apply I2. exact H.
  Qed.

  Lemma normalise_ok orows ochans ncorr a o :
    normalise K orows ochans ncorr a = Ok o ->
    forall r f c, r < orows -> f < ochans -> c < ncorr -> cell_norm K (a r f c) = Ok (o r f c).
  Proof.
    unfold normalise. intros E.
    refine (forM_inv_ok (fun k o' => forall r f c, r < k -> f < ochans -> c < ncorr ->
             cell_norm K (a r f c) = Ok (o' r f c)) orows _ _ _ _ _ E); [intros; lia|].
    intros k s1 s2 Hk I Es r f c Hr Hf Hc.
    change (norm_chan ochans ncorr a k s1 = Ok s2) in Es.
    apply norm_chan_ok in Es. destruct Es as [E1 E2].
    destruct (Nat.eq_dec r k) as [->|Hne]; [auto|]. rewrite E2 by exact Hne. apply I; lia.
  Qed.

  Lemma normalise_total orows ochans ncorr a :
    (forall r f c, r < orows -> f < ochans -> c < ncorr -> exists v, cell_norm K (a r f c) = Ok v) ->
    exists o, normalise K orows ochans ncorr a = Ok o.
  Proof.
    intros H. unfold normalise.
    destruct (forM_inv (fun _ (_ : arr3 (out_cell K)) => True) orows
       (fun r o => forM ochans (fun f o => forM ncorr (fun c o =>
          do! v <- cell_norm K (a r f c); Ok (upd3 o r f c v)) o) o) (fun _ _ _ => out_cell0 K) I)
      as [s [E _]]; [|eauto].
    intros r s Hr _.
    destruct (forM_inv (fun _ (_ : arr3 (out_cell K)) => True) ochans
       (fun f o => forM ncorr (fun c o =>
          do! v <- cell_norm K (a r f c); Ok (upd3 o r f c v)) o) s I) as [s' [E _]]; [|eauto].
    intros f s1 Hf _.
    destruct (forM_inv (fun _ (_ : arr3 (out_cell K)) => True) ncorr
       (fun c o => do! v <- cell_norm K (a r f c); Ok (upd3 o r f c v)) s1 I) as [s2 [E _]]; [|eauto].
    intros c s3 Hc _. destruct (H r f c Hr Hf Hc) as [v ->]. cbn [bind]. eauto.
  Qed.

  Lemma forM_exn {S} m (body : nat -> S -> res S) (e : exn) :
    (forall k s e', body k s = Raise e' -> e' = e) ->
    forall s e', forM m body s = Raise e' -> e' = e.
  Proof.
    intros H. induction m as [|m IH]; intros s e' E; [discriminate|].
    cbn [forM] in E. destruct (forM m body s) as [s'|e''] eqn:Em; cbn [bind] in E.
    - eapply H; eauto.
    - injection E as <-. eapply IH; eauto.
  Qed.
  Lemma normalise_exn orows ochans ncorr a e :
    normalise K orows ochans ncorr a = Raise e -> e = ZeroFilledBin.
  Proof.
    unfold normalise. apply forM_exn. intros r s1. apply forM_exn. intros f s2. apply forM_exn.
    intros c s3 e'. unfold cell_norm. destruct (a r f c) as [u b].
    destruct (Nat.ltb 0 (b_count K u)); [discriminate|].
    destruct (Nat.ltb 0 (b_count K b)); [discriminate|]. cbn. congruence.
  Qed.

  (* the contributing unflagged / flagged samples of an output cell *)
  Definition cell_samples n nchan (rmap cmap : arr nat) flag_row oflag r f : list (nat * nat) :=
    grid (filter (fun i => flags_match flag_row oflag i (rmap i) && Nat.eqb (rmap i) r) (seq 0 n))
         (filter (fun ch => Nat.eqb (cmap ch) f) (seq 0 nchan)).

  Lemma cell_samples_asc n nchan rmap cmap flag_row oflag r f p (P : nat -> nat -> Prop) :
    (forall i ch, p (i, ch) = true <-> P i ch) ->
    ascending2 n nchan (fun i ch => rmap i = r /\ cmap ch = f /\
        contributes flag_row oflag i r /\ P i ch)
      (filter p (cell_samples n nchan rmap cmap flag_row oflag r f)).
  Proof.
    intros Hp. split.
    - apply StronglySorted_filter, grid_sorted; apply StronglySorted_filter, StronglySorted_seq.
    - intros i ch. rewrite filter_In, Hp. unfold cell_samples.
      rewrite in_grid, !filter_In, !in_seq, andb_true_iff, !Nat.eqb_eq, flags_match_iff.
      split.
      + intros [[[H1 [H2 H3]] [H4 H5]] H6]. subst r. intuition lia.
      + intros [H1 [H2 [H3 [H4 [H5 H6]]]]]. subst r. intuition lia.
  Qed.

  Definition samples n nchan (rmap cmap : arr nat) flag_row oflag x r f c (fl : bool) :=
    filter (fun p => Bool.eqb (is_chan_flagged K x (fst p) (snd p) c) fl)
           (cell_samples n nchan rmap cmap flag_row oflag r f).

  Lemma accumulate_spec n nchan ncorr rmap cmap flag_row oflag x r f c :
    c < ncorr ->
    accumulate K n nchan ncorr rmap cmap flag_row oflag x r f c =
    (fold_left (fun s p => bank_add K x (fst p) (snd p) c s)
       (samples n nchan rmap cmap flag_row oflag x r f c false) (bank0 K),
     fold_left (fun s p => bank_add K x (fst p) (snd p) c s)
       (samples n nchan rmap cmap flag_row oflag x r f c true) (bank0 K)).
  Proof.
    intros Hc. unfold accumulate.
    rewrite (scatter3 n nchan ncorr (fun i => flags_match flag_row oflag i (rmap i)) rmap cmap
               (fun i ch co s => cell_add K x i ch co s) _ r f c Hc).
    rewrite cell_fold_split. unfold samples. fold (cell_samples n nchan rmap cmap flag_row oflag r f).
    cbn [fst snd].
    f_equal; (f_equal; apply filter_ext; intros p; destruct (is_chan_flagged _ _ _ _ _); reflexivity).
  Qed.

  Theorem row_chan_average_spec n nchan ncorr orows ochans rmap cmap flag_row oflag x out :
    row_chan_average K n nchan ncorr orows ochans rmap cmap flag_row oflag x = Ok out ->
    forall r f c, r < orows -> f < ochans -> c < ncorr ->
    exists lu lf l,
      ascending2 n nchan (fun i ch => rmap i = r /\ cmap ch = f /\
          contributes flag_row oflag i r /\ ~ sample_flagged K x i ch c) lu /\
      ascending2 n nchan (fun i ch => rmap i = r /\ cmap ch = f /\
          contributes flag_row oflag i r /\ sample_flagged K x i ch c) lf /\
      l <> [] /\
      (lu <> [] /\ l = lu /\ oc_flag K (out r f c) = 0%Z \/
       lu = [] /\ l = lf /\ oc_flag K (out r f c) = 1%Z) /\
      let w p := sample_weight K x (fst p) (snd p) c in
      let wsum := rsum (fun p => weight_or_1 K (w p)) l in
      (forall v, in_vis K x = Some v ->
         let total := csum (fun p => weighted K (v (fst p) (snd p) c) (w p)) l in
         oc_vis K (out r f c) =
           if fnonzero K wsum then cdiv K total wsum
           else match lu with [] => c0 K | _ => total end) /\
      (forall ws, in_wspec K x = Some ws ->
         oc_wspec K (out r f c) = rsum (fun p => ws (fst p) (snd p) c) l) /\
      (forall s, in_sspec K x = Some s ->
         let total := rsum (fun p => weighted2 K (s (fst p) (snd p) c) (w p)) l in
         oc_sspec K (out r f c) =
           if fnonzero K wsum then fsqrt K (fdiv K total (sq K wsum))
           else match lu with [] => f0 K | _ => total end).
  Proof.
    intros E r f c Hr Hf Hc. unfold row_chan_average in E.
    pose proof (normalise_ok orows ochans ncorr _ out E r f c Hr Hf Hc) as N.
    rewrite accumulate_spec in N by exact Hc.
    set (lu := samples n nchan rmap cmap flag_row oflag x r f c false) in *.
    set (lf := samples n nchan rmap cmap flag_row oflag x r f c true) in *.
    destruct (bank_fold_spec x c lu) as (U1 & U2 & U3 & U4). cbv zeta in U1, U2, U3, U4.
    destruct (bank_fold_spec x c lf) as (F1 & F2 & F3 & F4). cbv zeta in F1, F2, F3, F4.
    set (bu := fold_left _ lu _) in *. set (bf := fold_left _ lf _) in *.
    unfold cell_norm in N. rewrite U1, F1 in N.
    assert (Alu : ascending2 n nchan (fun i ch => rmap i = r /\ cmap ch = f /\
          contributes flag_row oflag i r /\ ~ sample_flagged K x i ch c) lu).
    { unfold lu, samples. apply cell_samples_asc. intros i ch. cbn [fst snd].
      rewrite <- is_chan_flagged_iff. destruct (is_chan_flagged K x i ch c); simpl; intuition congruence. }
    assert (Alf : ascending2 n nchan (fun i ch => rmap i = r /\ cmap ch = f /\
          contributes flag_row oflag i r /\ sample_flagged K x i ch c) lf).
    { unfold lf, samples. apply cell_samples_asc. intros i ch. cbn [fst snd].
      rewrite <- is_chan_flagged_iff. destruct (is_chan_flagged K x i ch c); simpl; intuition congruence. }
    clearbody lu lf. exists lu, lf.
    destruct lu as [|p lu'] eqn:Elu.
    - cbn [length] in N. destruct (Nat.ltb_spec 0 0); [lia|].
      destruct (Nat.ltb_spec 0 (length lf)) as [Hl|Hl]; [|discriminate].
      injection N as N. exists lf. split; [exact Alu|]. split; [exact Alf|].
      split; [destruct lf; [simpl in Hl; lia|discriminate]|].
      rewrite <- N. cbn [oc_flag oc_vis oc_wspec oc_sspec].
      split; [right; auto|]. split; [|split].
      + intros v Ev. destruct (F2 v Ev) as [G1 G2]. destruct (U2 v Ev) as [G3 _].
        unfold vis_norm. rewrite G1, G2, ?G3. reflexivity.
      + intros ws Ew. exact (F3 ws Ew).
      + intros s Es. destruct (F4 s Es) as [G1 G2]. destruct (U4 s Es) as [G3 _].
        unfold sigma_norm. rewrite G1, G2, ?G3. reflexivity.
    - cbn [length] in N. destruct (Nat.ltb_spec 0 (S (length lu'))); [|lia].
      injection N as N. exists (p :: lu'). split; [exact Alu|]. split; [exact Alf|].
      split; [discriminate|]. rewrite <- N. cbn [oc_flag oc_vis oc_wspec oc_sspec].
      split; [left; split; [discriminate|auto]|]. split; [|split].
      + intros v Ev. destruct (U2 v Ev) as [G1 G2]. unfold vis_norm. rewrite G1, G2. reflexivity.
      + intros ws Ew. exact (U3 ws Ew).
      + intros s Es. destruct (U4 s Es) as [G1 G2]. unfold sigma_norm. rewrite G1, G2. reflexivity.
  Qed.

  (* it raises exactly when some output cell receives no contributing sample *)
  Theorem row_chan_average_raises n nchan ncorr orows ochans rmap cmap flag_row oflag x :
    (forall r f c, r < orows -> f < ochans -> c < ncorr ->
       exists i ch, i < n /\ ch < nchan /\ rmap i = r /\ cmap ch = f /\ contributes flag_row oflag i r) <->
    exists out, row_chan_average K n nchan ncorr orows ochans rmap cmap flag_row oflag x = Ok out.
  Proof.
    split.
    - intros H. unfold row_chan_average. apply normalise_total. intros r f c Hr Hf Hc.
      rewrite accumulate_spec by exact Hc.
      destruct (H r f c Hr Hf Hc) as [i [ch [Hi [Hch [E1 [E2 E3]]]]]].
      set (lu := samples n nchan rmap cmap flag_row oflag x r f c false).
      set (lf := samples n nchan rmap cmap flag_row oflag x r f c true).
      destruct (bank_fold_spec x c lu) as (U1 & _). destruct (bank_fold_spec x c lf) as (F1 & _).
      cbv zeta in U1, F1. unfold cell_norm. rewrite U1, F1.
      destruct (Nat.ltb_spec 0 (length lu)); [eauto|].
      destruct (Nat.ltb_spec 0 (length lf)); [eauto|]. exfalso.
      assert (Hin : In (i, ch) (cell_samples n nchan rmap cmap flag_row oflag r f)).
      { unfold cell_samples. rewrite in_grid, !filter_In, !in_seq, andb_true_iff, !Nat.eqb_eq, flags_match_iff.
        subst r. intuition lia. }
      destruct (is_chan_flagged K x i ch c) eqn:Ef.
      + assert (L : In (i, ch) lf) by (apply filter_In; cbn [fst snd]; rewrite Ef; auto).
        destruct lf; [destruct L|simpl in *; lia].
      + assert (L : In (i, ch) lu) by (apply filter_In; cbn [fst snd]; rewrite Ef; auto).
        destruct lu; [destruct L|simpl in *; lia].
    - intros [out E] r f c Hr Hf Hc.
      destruct (row_chan_average_spec _ _ _ _ _ _ _ _ _ _ _ E r f c Hr Hf Hc)
        as [lu [lf [l [A1 [A2 [A3 [A4 _]]]]]]].
      destruct l as [|[i ch] l]; [congruence|].
      assert (In (i, ch) lu \/ In (i, ch) lf) as [I|I].
      { destruct A4 as [[_ [<- _]]|[_ [<- _]]]; [left|right]; now left. }
      + apply A1 in I. exists i, ch. tauto.
      + apply A2 in I. exists i, ch. tauto.
  Qed.
End Cells.
