(* Both reductions over source chunks give the un-chunked sum; the chunked prediction *)
From Coq Require Import Ring Permutation.
From Verif Require Import Prelude PreludeFacts CRing PredictModel PredictSpec PredictProofs
  DaskPredictModel DaskPredictSpec DaskPredictProofs.
Open Scope nat_scope.

Lemma chunk_off_S l i : i < length l -> chunk_off l (S i) = chunk_off l i + nth i l 0.
Proof.
  unfold chunk_off, list_sum. revert i. induction l as [|x l IH]; intros i Hi; [simpl in Hi; lia|].
  destruct i as [|i]; [simpl; lia|]. cbn [length] in Hi. specialize (IH i ltac:(lia)).
  rewrite (firstn_cons (S i)), (firstn_cons i). cbn [nth fold_right]. rewrite IH. lia.
Qed.
Lemma chunk_off_all l : chunk_off l (length l) = list_sum l.
Proof. unfold chunk_off. now rewrite firstn_all. Qed.
Lemma chunk_off_le l i : i <= length l -> chunk_off l i <= list_sum l.
Proof.
  intros H. unfold chunk_off. rewrite <- (firstn_skipn i l) at 2. rewrite list_sum_app. lia.
Qed.

Section P.
  Context {K : cops} (L : claws K).
  Add Ring Kring : (law_ring K L).
  Open Scope K_scope.
  Context (full : bool) (nsrc nchan ncorr : nat) (a : predict_in K) (ch : chunking).
  Context (Sh : shapes full nsrc nchan ncorr a) (Co : chunks_ok ch nsrc nchan a).
  Context (P1 : paired (p_dde1 a) (p_dde2 a)) (P2 : paired (p_die1 a) (p_die2 a)).
  Context (Hn : 0 < p_nrow a).
  Context (tmin : Z) (Hm : is_min (p_nrow a) (p_time a) tmin).

  (* the term of one source *)
  Definition term (t r f s : nat) : jones K :=
    match p_dde1 a, p_coh a, p_dde2 a with
    | Some e1, Some x, Some e2 => sandwich full (d_at e1 s t (p_ant1 a r) f) (h_at x s r f) (d_at e2 s t (p_ant2 a r) f)
    | Some e1, None, Some e2 => sandwich full (d_at e1 s t (p_ant1 a r) f) (jone full) (d_at e2 s t (p_ant2 a r) f)
    | None, Some x, None => h_at x s r f
    | _, _, _ => jzero
    end.
  Lemma source_term_terms t r f i j : source_term full t a r f i j = jsum nsrc (term t r f) i j.
  Proof.
    unfold source_term, term, jsum. destruct Sh as [S1 S2 S3 _ _ _].
    destruct (p_dde1 a) as [e1|], (p_dde2 a) as [e2|];
        try (exfalso; destruct P1 as [P P']; (discriminate (P eq_refl) || discriminate (P' eq_refl)));
      destruct (p_coh a) as [x|].
    - destruct (S1 e1 eq_refl) as [_ [-> _]]. reflexivity.
    - destruct (S1 e1 eq_refl) as [_ [-> _]]. reflexivity.
    - destruct (S3 x eq_refl) as [_ [-> _]]. reflexivity.
    - unfold jzero. symmetry. apply (csum_0 L).
  Qed.

  Notation roff rb := (chunk_off (ck_row ch) rb).
  Notation coff cb := (chunk_off (ck_chan ch) cb).
  Notation soff sb := (chunk_off (ck_src ch) sb).
  Notation toff rb := (chunk_off (ck_time ch) rb).
  Notation gt r := (Z.to_nat (p_time a r - tmin)).

  Definition blk_in (sb rb cb : nat) (bv : option (vis_arr K)) : predict_in K :=
    {| p_nrow := nth rb (ck_row ch) 0%nat; p_time := blk ch rb (p_time a);
       p_ant1 := blk ch rb (p_ant1 a); p_ant2 := blk ch rb (p_ant2 a);
       p_dde1 := option_map (blk_dde ch sb rb cb) (p_dde1 a);
       p_coh := option_map (blk_coh ch sb rb cb) (p_coh a);
       p_dde2 := option_map (blk_dde ch sb rb cb) (p_dde2 a);
       p_die1 := None; p_bvis := bv; p_die2 := None |}.

  Record vshape (rb cb : nat) (w : vis_arr K) : Prop := {
    vs_ndim : v_ndim w = (if full then 4 else 3)%nat;
    vs_row : v_row w = nth rb (ck_row ch) 0%nat;
    vs_chan : v_chan w = nth cb (ck_chan ch) 0%nat;
    vs_corr : v_corr w = ncorr }.

  (* local and global time slots *)
  Lemma slots rb r : rb < length (ck_row ch) -> r < nth rb (ck_row ch) 0%nat ->
    gt (roff rb + r)%nat = (toff rb + Z.to_nat (blk ch rb (p_time a) r - (tmin + Z.of_nat (toff rb))))%nat.
  Proof.
    intros Hrb Hr. destruct (co_aligned _ _ _ _ Co tmin Hm rb Hrb) as [_ M]. specialize (M r Hr).
    unfold blk in *. lia.
  Qed.

  Lemma block_predict sb rb cb bv :
    (p_dde1 a <> None \/ p_coh a <> None) ->
    sb < length (ck_src ch) -> rb < length (ck_row ch) -> (forall b, bv = Some b -> vshape rb cb b) ->
    exists w, predict_vis (blk_in sb rb cb bv) = Ok w /\ vshape rb cb w /\
      forall r f, r < nth rb (ck_row ch) 0%nat -> f < nth cb (ck_chan ch) 0%nat ->
        jeq full ncorr (v_at w r f)
          (jadd (jsum (nth sb (ck_src ch) 0%nat) (fun s => term (gt (roff rb + r)%nat) (roff rb + r) (coff cb + f) (soff sb + s)))
                (match bv with Some b => v_at b r f | None => jzero end)).
  Proof.
    intros Hsup Hs Hrb Hbv. set (q := blk_in sb rb cb bv).
    assert (S : shapes full (nth sb (ck_src ch) 0%nat) (nth cb (ck_chan ch) 0%nat) ncorr q).
    { destruct Sh as [S1 S2 S3 _ _ _]. constructor; cbn [p_dde1 p_dde2 p_coh p_die1 p_die2 p_bvis p_nrow q blk_in]; try discriminate.
      - intros e H. destruct (p_dde1 a) as [x|]; [|discriminate]. injection H as <-. cbn. destruct (S1 x eq_refl). tauto.
      - intros e H. destruct (p_dde2 a) as [x|]; [|discriminate]. injection H as <-. cbn. destruct (S2 x eq_refl). tauto.
      - intros e H. destruct (p_coh a) as [x|]; [|discriminate]. injection H as <-. cbn. destruct (S3 x eq_refl). tauto.
      - intros b H. destruct (Hbv b H). tauto. }
    assert (Q1 : paired (p_dde1 q) (p_dde2 q)).
    { unfold paired, q, blk_in in *. cbn. destruct (p_dde1 a), (p_dde2 a); cbn; intuition congruence. }
    assert (Q2 : paired (p_die1 q) (p_die2 q)) by (unfold paired; tauto).
    assert (Q3 : supplied q).
    { unfold supplied, q, blk_in. cbn. destruct Hsup as [H|H]; [left|right; left].
      - destruct (p_dde1 a); [discriminate|congruence]. - destruct (p_coh a); [discriminate|congruence]. }
    assert (Q4 : 0 < p_nrow q) by (apply (co_row_pos _ _ _ _ Co rb Hrb)).
    destruct (predict_vis_spec L full _ _ ncorr q S Q1 Q2 Q3 Q4) as [w [E [W1 [W2 [W3 [W4 F]]]]]].
    exists w. split; [exact E|]. split; [constructor; assumption|].
    intros r f Hr Hf i j C.
    rewrite (F _ (co_aligned _ _ _ _ Co tmin Hm rb Hrb) r f Hr Hf i j C).
    unfold measurement. cbn [p_die1 q blk_in p_bvis p_time]. unfold jadd.
    f_equal. rewrite (slots rb r Hrb Hr).
    set (t := Z.to_nat _). unfold source_term, term. cbn [q blk_in p_dde1 p_dde2 p_coh p_ant1 p_ant2].
    destruct (p_dde1 a) as [e1|], (p_dde2 a) as [e2|];
        try (exfalso; destruct P1 as [P P']; (discriminate (P eq_refl) || discriminate (P' eq_refl)));
      destruct (p_coh a) as [x|]; try reflexivity. exfalso; intuition congruence.
  Qed.

  Definition partial_sum (S : nat) (rb cb : nat) (w : vis_arr K) : Prop :=
    vshape rb cb w /\
    forall r f, r < nth rb (ck_row ch) 0%nat -> f < nth cb (ck_chan ch) 0%nat ->
      jeq full ncorr (v_at w r f) (jsum S (term (gt (roff rb + r)%nat) (roff rb + r) (coff cb + f))).

  (* ---------- stream ---------- *)
  Lemma ncorr_dims_12 : (p_dde1 a <> None \/ p_coh a <> None) -> ncorr_dims a = if full then 2%nat else 1%nat.
  Proof.
    intros H. unfold ncorr_dims. destruct Sh as [S1 _ S3 _ _ _]. destruct (p_dde1 a) as [e|].
    - destruct (S1 e eq_refl) as [-> _]. destruct full; reflexivity.
    - destruct (p_coh a) as [x|]; [|exfalso; intuition congruence].
      destruct (S3 x eq_refl) as [-> _]. destruct full; reflexivity.
  Qed.

  Notation oidx := ([0; 3]%nat ++ cdims (ncorr_dims a)).
  Notation bs_of rb cb := ([rb; cb] ++ repeat 0%nat (ncorr_dims a)).

  Notation inds := (lr_indices (ncorr_dims a) a).
  Notation chain_ := (chain predict_func oidx inds (lr_dim_blocks ch) 7 1 (input_store ch a)).
  Notation argvals_ := (argvals oidx inds (lr_dim_blocks ch) 7 1 (input_store ch a)).

  Lemma argvals_eq (Hsup : p_dde1 a <> None \/ p_coh a <> None) fv i rb cb :
    argvals_ fv i (bs_of rb cb) =
      [Some (VTime (nth rb (ck_row ch) 0%nat) (blk ch rb (p_time a))); Some (VAnt (blk ch rb (p_ant1 a)));
       Some (VAnt (blk ch rb (p_ant2 a)));
       option_map (fun e => VDde (blk_dde ch i rb cb e)) (p_dde1 a);
       option_map (fun e => VCoh (blk_coh ch i rb cb e)) (p_coh a);
       option_map (fun e => VDde (blk_dde ch i rb cb e)) (p_dde2 a); None; fv; None].
  Proof.
    rewrite (ncorr_dims_12 Hsup). unfold argvals, lr_indices.
    destruct full; cbn [cdims seq app repeat length combine map argval fst snd Nat.eqb];
      destruct (p_dde1 a) eqn:E1, (p_coh a) eqn:E2, (p_dde2 a) eqn:E3; cbn [have fst snd]; 
      unfold argval; cbn [fst snd Nat.eqb ind_map pos_of bind option_map nth lr_dim_blocks];
      cbn [input_store]; rewrite ?E1, ?E2, ?E3; reflexivity.
  Qed.

  Lemma predict_func_eq i rb cb bv :
    predict_func
      [Some (VTime (nth rb (ck_row ch) 0%nat) (blk ch rb (p_time a))); Some (VAnt (blk ch rb (p_ant1 a)));
       Some (VAnt (blk ch rb (p_ant2 a)));
       option_map (fun e => VDde (blk_dde ch i rb cb e)) (p_dde1 a);
       option_map (fun e => VCoh (blk_coh ch i rb cb e)) (p_coh a);
       option_map (fun e => VDde (blk_dde ch i rb cb e)) (p_dde2 a); None; option_map VVis bv; None] =
    match predict_vis (blk_in i rb cb bv) with Ok v => VVis v | Raise e => VErr e end.
  Proof.
    cbn [predict_func]. unfold blk_in. destruct bv as [b|]; cbn [option_map as_vis];
      destruct (p_dde1 a), (p_coh a), (p_dde2 a); reflexivity.
  Qed.

  Lemma stream_partial (Hsup : p_dde1 a <> None \/ p_coh a <> None) rb cb : rb < length (ck_row ch) ->
    forall i, i < length (ck_src ch) ->
    exists w, chain_ i (bs_of rb cb) = VVis w /\ partial_sum (soff (S i)) rb cb w.
  Proof.
    intros Hrb. induction i as [|k IH]; intros Hi.
    - cbn [chain]. rewrite (argvals_eq Hsup). pose proof (predict_func_eq 0 rb cb None) as E. cbn [option_map] in E.
      rewrite E. destruct (block_predict 0 rb cb None Hsup Hi Hrb ltac:(discriminate)) as [w [-> [Vs F]]].
      exists w. split; [reflexivity|]. split; [exact Vs|]. intros r f Hr Hf ii jj C.
      rewrite (F r f Hr Hf ii jj C). unfold jadd, jzero. rewrite chunk_off_S by lia.
      change (soff 0) with 0%nat. cbn [Nat.add]. unfold jsum. unfold jsum; ring.
    - destruct IH as [w0 [E0 [Vs0 F0]]]; [lia|]. cbn [chain]. rewrite (argvals_eq Hsup).
      change (exists w, predict_func
      [Some (VTime (nth rb (ck_row ch) 0%nat) (blk ch rb (p_time a))); Some (VAnt (blk ch rb (p_ant1 a)));
       Some (VAnt (blk ch rb (p_ant2 a)));
       option_map (fun e => VDde (blk_dde ch (S k) rb cb e)) (p_dde1 a);
       option_map (fun e => VCoh (blk_coh ch (S k) rb cb e)) (p_coh a);
       option_map (fun e => VDde (blk_dde ch (S k) rb cb e)) (p_dde2 a); None; Some (chain_ k (bs_of rb cb)); None] = VVis w /\ partial_sum (soff (S (S k))) rb cb w).
      rewrite E0. pose proof (predict_func_eq (S k) rb cb (Some w0)) as E. cbn [option_map] in E. rewrite E.
      destruct (block_predict (S k) rb cb (Some w0) Hsup Hi Hrb ltac:(intros b H; injection H as <-; exact Vs0)) as [w [-> [Vs F]]].
      exists w. split; [reflexivity|]. split; [exact Vs|]. intros r f Hr Hf ii jj C.
      rewrite (F r f Hr Hf ii jj C). unfold jadd. rewrite (F0 r f Hr Hf ii jj C).
      rewrite (chunk_off_S _ (S k)) by lia. unfold jsum. rewrite (csum_split L). unfold jsum; ring.
  Qed.

  Lemma blocks_pos : 0 < length (ck_src ch).
  Proof. pose proof (co_src_some _ _ _ _ Co). destruct (ck_src ch); [congruence|simpl; lia]. Qed.

  Lemma total_sum rb cb w : partial_sum (soff (length (ck_src ch))) rb cb w -> partial_sum nsrc rb cb w.
  Proof. rewrite chunk_off_all, (co_src _ _ _ _ Co). auto. Qed.

  Lemma input_keys k v : input_store ch a k = Some v -> exists n b, k = KIn n b.
  Proof. destruct k; [discriminate|discriminate|eauto]. Qed.

  Lemma graph_ok (Hsup : p_dde1 a <> None \/ p_coh a <> None) : exists dsk, linear_graph ch a = Ok dsk.
  Proof.
    unfold linear_graph, lr_dict. rewrite (ncorr_dims_12 Hsup).
    assert (E : existsb (Nat.eqb 1) ([0; 3]%nat ++ cdims (if full then 2 else 1)) = false) by (destruct full; reflexivity).
    rewrite E. apply mapM_total. intros oi Hoi.
    assert (T : exists t, lr_task (1%nat :: [0; 3]%nat ++ cdims (if full then 2 else 1)) (lr_indices (if full then 2 else 1) a) (lr_dim_blocks ch) 7 oi = Ok t).
    { apply mapM_total. intros [idx e] He.
      destruct (Nat.eqb idx 7); [destruct oi as [|[|k] rest]; eauto|].
      destruct e as [[name ind]|]; [|eauto]. apply in_combine_r in He. unfold lr_indices in He.
      destruct (have (p_dde1 a)), (have (p_coh a)), (have (p_dde2 a)), full; cbn [cdims seq app In] in He;
        repeat (destruct He as [He|He]; [try discriminate; injection He as <- <-; cbn [ind_map pos_of Nat.eqb option_map lr_dim_blocks bind cdims seq app]; eauto|]);
        destruct He. }
    destruct T as [t ->]. cbn [bind]. eauto.
  Qed.

  Lemma stream_value_ok (Hsup : p_dde1 a <> None \/ p_coh a <> None) dsk sched rb cb v :
    rb < length (ck_row ch) -> linear_graph ch a = Ok dsk ->
    execute predict_func dsk (input_store ch a) sched (out_key a rb cb) = Some v ->
    exists w, v = VVis w /\ partial_sum nsrc rb cb w.
  Proof.
    intros Hrb HG HE. unfold out_key in HE.
    apply (stream_value predict_func _ _ _ _ _ _ _ HG input_keys) in HE.
    pose proof blocks_pos as Bp.
    change (nblocks (lr_dim_blocks ch) 1) with (length (ck_src ch)) in HE.
    destruct (stream_partial Hsup rb cb Hrb (length (ck_src ch) - 1)%nat ltac:(lia)) as [w [E P]].
    exists w. split; [congruence|]. apply total_sum.
    replace (S (length (ck_src ch) - 1)) with (length (ck_src ch)) in P by lia. exact P.
  Qed.

  Lemma stream_done (Hsup : p_dde1 a <> None \/ p_coh a <> None) dsk rb cb :
    rb < length (ck_row ch) -> cb < length (ck_chan ch) -> linear_graph ch a = Ok dsk ->
    exists sched v, execute predict_func dsk (input_store ch a) sched (out_key a rb cb) = Some v.
  Proof.
    intros Hrb Hcb HG. unfold out_key.
    apply (stream_completes predict_func _ _ _ _ _ _ _ HG input_keys).
    - intros i bs HF idx name ind Hidx Hne. unfold linear_graph in HG. rewrite (ncorr_dims_12 Hsup) in HF, Hidx |- *.
      assert (exists rb' cb' z zs, bs = rb' :: cb' :: z :: zs /\ length zs = (if full then 1 else 0)%nat) as [rb' [cb' [z [zs [-> Hz]]]]].
      { clear -HF. destruct full; cbn [map cdims seq app] in HF;
          repeat match goal with H : Forall2 _ _ (_ :: _) |- _ => inversion H; clear H; subst
                 | H : Forall2 _ _ [] |- _ => inversion H; clear H; subst end;
          do 4 eexists; split; reflexivity. }
      unfold lr_indices in Hidx.
      destruct full; (destruct zs as [|z1 [|z2 zs]]; simpl in Hz; try lia);
      destruct (p_dde1 a) as [e1|] eqn:E1, (p_coh a) as [x|] eqn:E2, (p_dde2 a) as [e2|] eqn:E3; cbn [have] in Hidx;
      destruct idx as [|[|[|[|[|[|[|[|[|idx]]]]]]]]]; cbn [nth_error cdims seq app] in Hidx;
      try discriminate; try (destruct idx; discriminate); injection Hidx as <- <-;
      eexists; eexists; (split; [reflexivity|]); cbn [input_store nth]; rewrite ?E1, ?E2, ?E3; reflexivity.
    - rewrite (ncorr_dims_12 Hsup). destruct full; repeat (constructor; [cbn; lia|]); constructor.
    - exact blocks_pos.
  Qed.

  (* ---------- tree ---------- *)
  Definition leaf_sum (t r f i j : nat) (sb : nat) : K :=
    jsum (nth sb (ck_src ch) 0%nat) (fun s => term t r f (soff sb + s)) i j.

  Lemma tree_value (Hsup : p_dde1 a <> None \/ p_coh a <> None) rb cb t : rb < length (ck_row ch) ->
    (forall sb, In sb (leaves t) -> sb < length (ck_src ch)) ->
    exists w, tree_sum ch a rb cb t = Ok w /\ vshape rb cb w /\
      forall r f, r < nth rb (ck_row ch) 0%nat -> f < nth cb (ck_chan ch) 0%nat ->
      forall i j, corr_ok full ncorr i j ->
        v_at w r f i j = lcsum (map (leaf_sum (gt (roff rb + r)%nat) (roff rb + r) (coff cb + f) i j) (leaves t)).
  Proof.
    intros Hrb. induction t as [sb|l IHl r0 IHr]; intros Hl.
    - cbn [tree_sum]. destruct (block_predict sb rb cb None Hsup (Hl sb (or_introl eq_refl)) Hrb ltac:(discriminate)) as [w [E [Vs F]]].
      exists w. split; [exact E|]. split; [exact Vs|]. intros r f Hr Hf i j C. rewrite (F r f Hr Hf i j C).
      cbn [leaves map lcsum]. unfold jadd, jzero, leaf_sum. unfold jsum; ring.
    - cbn [leaves] in Hl. destruct IHl as [x [Ex [Vx Fx]]]; [intros; apply Hl, in_or_app; auto|].
      destruct IHr as [y [Ey [Vy Fy]]]; [intros; apply Hl, in_or_app; auto|].
      cbn [tree_sum]. rewrite Ex, Ey. cbn [bind]. eexists. split; [reflexivity|]. split; [destruct Vx; constructor; assumption|].
      intros r f Hr Hf i j C. cbn [add_vis v_at leaves]. rewrite map_app, (lcsum_app L), (Fx r f Hr Hf i j C), (Fy r f Hr Hf i j C).
      reflexivity.
  Qed.

  Lemma blocks_total t r f i j n : n <= length (ck_src ch) ->
    lcsum (map (leaf_sum t r f i j) (seq 0 n)) = jsum (soff n) (term t r f) i j.
  Proof.
    induction n as [|n IH]; intros H; [reflexivity|].
    rewrite seq_S, map_app, (lcsum_app L), IH by lia. cbn [map lcsum Nat.add]. rewrite chunk_off_S by lia.
    unfold jsum, leaf_sum. rewrite (csum_split L). unfold jsum. unfold jsum; ring.
  Qed.

  Lemma tree_ok (Hsup : p_dde1 a <> None \/ p_coh a <> None) rb cb t : rb < length (ck_row ch) ->
    Permutation (leaves t) (seq 0 (length (ck_src ch))) ->
    exists w, tree_sum ch a rb cb t = Ok w /\ partial_sum nsrc rb cb w.
  Proof.
    intros Hrb Hp. destruct (tree_value Hsup rb cb t Hrb) as [w [E [Vs F]]].
    { intros sb H. apply (Permutation_in _ Hp) in H. apply in_seq in H. lia. }
    exists w. split; [exact E|]. apply total_sum. split; [exact Vs|]. intros r f Hr Hf i j C.
    rewrite (F r f Hr Hf i j C). rewrite (lcsum_perm L _ _ (Permutation_map _ Hp)). apply blocks_total. lia.
  Qed.

  (* ---------- the finished block ---------- *)
  Definition dies_in (rb cb : nat) (bv : option (vis_arr K)) : predict_in K :=
    {| p_nrow := nth rb (ck_row ch) 0%nat; p_time := blk ch rb (p_time a);
       p_ant1 := blk ch rb (p_ant1 a); p_ant2 := blk ch rb (p_ant2 a);
       p_dde1 := None; p_coh := None; p_dde2 := None;
       p_die1 := option_map (blk_die ch rb cb) (p_die1 a); p_bvis := bv;
       p_die2 := option_map (blk_die ch rb cb) (p_die2 a) |}.

  Definition with_dies (rb cb r f : nat) (inner : jones K) : jones K :=
    match p_die1 a, p_die2 a with
    | Some g1, Some g2 => sandwich full (g_at g1 (gt (roff rb + r)%nat) (p_ant1 a (roff rb + r)%nat) (coff cb + f)%nat) inner
                                        (g_at g2 (gt (roff rb + r)%nat) (p_ant2 a (roff rb + r)%nat) (coff cb + f)%nat)
    | _, _ => inner
    end.

  Lemma dies_predict rb cb bv : rb < length (ck_row ch) -> (forall b, bv = Some b -> vshape rb cb b) ->
    (p_die1 a <> None \/ bv <> None) ->
    exists w, dies_block ch a bv rb cb = Ok w /\ vshape rb cb w /\
      forall r f, r < nth rb (ck_row ch) 0%nat -> f < nth cb (ck_chan ch) 0%nat ->
        jeq full ncorr (v_at w r f) (with_dies rb cb r f (match bv with Some b => v_at b r f | None => jzero end)).
  Proof.
    intros Hrb Hbv Hsup. set (q := dies_in rb cb bv). change (dies_block ch a bv rb cb) with (predict_vis q).
    assert (S : shapes full 0 (nth cb (ck_chan ch) 0%nat) ncorr q).
    { destruct Sh as [_ _ _ S4 S5 _]. constructor; cbn [p_dde1 p_dde2 p_coh p_die1 p_die2 p_bvis p_nrow q dies_in]; try discriminate.
      - intros g H. destruct (p_die1 a) as [x|]; [|discriminate]. injection H as <-. cbn. destruct (S4 x eq_refl). tauto.
      - intros g H. destruct (p_die2 a) as [x|]; [|discriminate]. injection H as <-. cbn. destruct (S5 x eq_refl). tauto.
      - intros b H. destruct (Hbv b H). tauto. }
    assert (Q1 : paired (p_dde1 q) (p_dde2 q)) by (unfold paired; tauto).
    assert (Q2 : paired (p_die1 q) (p_die2 q)).
    { unfold paired, q, dies_in in *. cbn. destruct (p_die1 a), (p_die2 a); cbn; intuition congruence. }
    assert (Q3 : supplied q).
    { unfold supplied, q, dies_in. cbn. destruct Hsup as [H|H]; [right; right; left|right; right; right; exact H].
      destruct (p_die1 a); [discriminate|congruence]. }
    assert (Q4 : 0 < p_nrow q) by (apply (co_row_pos _ _ _ _ Co rb Hrb)).
    destruct (predict_vis_spec L full _ _ ncorr q S Q1 Q2 Q3 Q4) as [w [E [W1 [W2 [W3 [W4 F]]]]]].
    exists w. split; [exact E|]. split; [constructor; assumption|].
    intros r f Hr Hf i j C.
    rewrite (F _ (co_aligned _ _ _ _ Co tmin Hm rb Hrb) r f Hr Hf i j C).
    assert (IN : jeq full ncorr (jadd (source_term full (Z.to_nat (p_time q r - (tmin + Z.of_nat (toff rb)))) q r f)
         match p_bvis q with Some b => v_at b r f | None => jzero end) (match bv with Some b => v_at b r f | None => jzero end)).
    { intros i' j' _. unfold jadd, source_term. cbn [q dies_in p_dde1 p_coh p_dde2 p_bvis]. unfold jzero at 1. ring. }
    unfold measurement, with_dies. rewrite (slots rb r Hrb Hr). cbn [q dies_in p_die1 p_die2 p_time p_ant1 p_ant2] in *.
    unfold paired in P2. destruct (p_die1 a) as [g1|], (p_die2 a) as [g2|];
      try (exfalso; destruct P2 as [P P']; (discriminate (P eq_refl) || discriminate (P' eq_refl)));
      cbn [option_map].
    - exact (sandwich_ext full ncorr _ _ _ _ IN i j C).
    - exact (IN i j C).
  Qed.

  Lemma measurement_split rb cb r f :
    measurement full (gt (roff rb + r)%nat) a (roff rb + r)%nat (coff cb + f)%nat =
    with_dies rb cb r f (jadd (source_term full (gt (roff rb + r)%nat) a (roff rb + r)%nat (coff cb + f)%nat)
      match p_bvis a with Some b => v_at b (roff rb + r)%nat (coff cb + f)%nat | None => jzero end).
  Proof. reflexivity. Qed.

  Lemma with_dies_ext rb cb r f x y : jeq full ncorr x y -> jeq full ncorr (with_dies rb cb r f x) (with_dies rb cb r f y).
  Proof.
    intros H. unfold with_dies. destruct (p_die1 a), (p_die2 a); try exact H. now apply sandwich_ext.
  Qed.

  Lemma bvis_shape rb cb b : p_bvis a = Some b -> vshape rb cb (blk_vis ch rb cb b).
  Proof. intros H. destruct Sh as [_ _ _ _ _ S6]. destruct (S6 b H) as [N [_ [_ Nc]]]. constructor; auto. Qed.

  Definition matches (rb cb : nat) (out : vis_arr K) : Prop :=
    v_row out = nth rb (ck_row ch) 0%nat /\ v_chan out = nth cb (ck_chan ch) 0%nat /\ v_corr out = ncorr /\
    forall r f, r < nth rb (ck_row ch) 0%nat -> f < nth cb (ck_chan ch) 0%nat ->
      jeq full ncorr (v_at out r f) (measurement full (gt (roff rb + r)%nat) a (roff rb + r)%nat (coff cb + f)%nat).

  Lemma finish_some rb cb s (Hsup : p_dde1 a <> None \/ p_coh a <> None) : rb < length (ck_row ch) ->
    partial_sum nsrc rb cb s ->
    exists out, finish_block ch a (Some s) rb cb = Ok out /\ matches rb cb out.
  Proof.
    intros Hrb [Vs Fs]. unfold finish_block.
    assert (G : (have (p_dde1 a) || have (p_coh a) || have (p_dde2 a) || have (p_die1 a) || have (p_die2 a))%bool = true).
    { destruct Hsup as [H|H]; [destruct (p_dde1 a); [reflexivity|congruence]|].
      destruct (p_coh a); [|congruence]. cbn [have]. rewrite orb_true_r. reflexivity. }
    rewrite G. cbn [negb].
    destruct (p_bvis a) as [b|] eqn:Eb.
    - assert (Vb : vshape rb cb (add_vis (blk_vis ch rb cb b) s)) by (destruct (bvis_shape rb cb b Eb); constructor; assumption).
      destruct (dies_predict rb cb (Some (add_vis (blk_vis ch rb cb b) s)) Hrb) as [w [E [[W1 W2 W3 W4] F]]].
      { intros b' H. injection H as <-. exact Vb. }
      { right. discriminate. }
      exists w. split; [exact E|]. split; [exact W2|]. split; [exact W3|]. split; [exact W4|].
      intros r f Hr Hf i j C. rewrite (F r f Hr Hf i j C), measurement_split.
      refine (with_dies_ext rb cb r f _ _ _ i j C). rewrite Eb. intros i' j' C'. cbn [add_vis v_at blk_vis].
      unfold jadd. rewrite (Fs r f Hr Hf i' j' C'), source_term_terms. unfold jsum; ring.
    -
      assert (Y : forall r f, r < nth rb (ck_row ch) 0%nat -> f < nth cb (ck_chan ch) 0%nat -> jeq full ncorr (v_at s r f)
          (jadd (source_term full (gt (roff rb + r)%nat) a (roff rb + r)%nat (coff cb + f)%nat) match p_bvis a with Some b => v_at b (roff rb + r)%nat (coff cb + f)%nat | None => jzero end)).
      { intros r f Hr Hf i' j' C'. rewrite (Fs r f Hr Hf i' j' C'), Eb. unfold jadd, jzero. rewrite source_term_terms. ring. }
      destruct (have (p_die1 a) && have (p_die2 a)) eqn:Ed.
      + destruct (dies_predict rb cb (Some s) Hrb) as [w [E [[W1 W2 W3 W4] F]]].
        { intros b' H. injection H as <-. exact Vs. }
        { right. discriminate. }
        exists w. split; [exact E|]. split; [exact W2|]. split; [exact W3|]. split; [exact W4|].
        intros r f Hr Hf i j C. rewrite (F r f Hr Hf i j C), measurement_split.
        exact (with_dies_ext rb cb r f _ _ (Y r f Hr Hf) i j C).
      + exists s. split; [reflexivity|]. destruct Vs as [V1 V2 V3 V4]. split; [exact V2|]. split; [exact V3|]. split; [exact V4|].
        intros r f Hr Hf i j C. rewrite measurement_split, (Y r f Hr Hf i j C). unfold with_dies.
        destruct (p_die1 a), (p_die2 a); try reflexivity. discriminate.
  Qed.

  Lemma finish_none rb cb : p_dde1 a = None -> p_coh a = None -> p_die1 a <> None -> rb < length (ck_row ch) ->
    exists out, finish_block ch a None rb cb = Ok out /\ matches rb cb out.
  Proof.
    intros E1 E2 E3 Hrb. unfold finish_block.
    assert (G : (have (p_dde1 a) || have (p_coh a) || have (p_dde2 a) || have (p_die1 a) || have (p_die2 a))%bool = true).
    { destruct (p_die1 a); [|congruence]. cbn [have]. rewrite orb_true_r. reflexivity. }
    rewrite G. cbn [negb].
    assert (ST : forall t r f i j, source_term full t a r f i j = 0).
    { intros. unfold source_term. rewrite E1, E2. destruct (p_dde2 a); reflexivity. }
    destruct (p_bvis a) as [b|] eqn:Eb.
    - destruct (dies_predict rb cb (Some (blk_vis ch rb cb b)) Hrb) as [w [E [[W1 W2 W3 W4] F]]].
      { intros b' H. injection H as <-. exact (bvis_shape rb cb b Eb). }
      { now left. }
      exists w. split; [exact E|]. split; [exact W2|]. split; [exact W3|]. split; [exact W4|].
      intros r f Hr Hf i j C. rewrite (F r f Hr Hf i j C), measurement_split.
      refine (with_dies_ext rb cb r f _ _ _ i j C). rewrite Eb. intros i' j' C'. unfold jadd. rewrite ST. cbn. unfold jsum; ring.
    - destruct (dies_predict rb cb None Hrb) as [w [E [[W1 W2 W3 W4] F]]]; [discriminate|now left|].
      exists w. split; [exact E|]. split; [exact W2|]. split; [exact W3|]. split; [exact W4|].
      intros r f Hr Hf i j C. rewrite (F r f Hr Hf i j C), measurement_split.
      refine (with_dies_ext rb cb r f _ _ _ i j C). rewrite Eb. intros i' j' C'. unfold jadd. rewrite ST. cbn. unfold jzero. unfold jsum; ring.
  Qed.
End P.

Section Final.
  Context {K : cops} (L : claws K).

  Lemma in_range l i k : i < length l -> k < nth i l 0 -> chunk_off l i + k < list_sum l.
  Proof. intros H1 H2. pose proof (chunk_off_S l i H1). pose proof (chunk_off_le l (S i) H1). lia. Qed.

  Lemma whole_block full nsrc nchan ncorr (a : predict_in K) ch rb cb whole out tmin :
    shapes full nsrc nchan ncorr a -> paired (p_dde1 a) (p_dde2 a) -> paired (p_die1 a) (p_die2 a) ->
    chunks_ok ch nsrc nchan a -> is_min (p_nrow a) (p_time a) tmin -> predict_vis a = Ok whole ->
    supplied a -> 0 < p_nrow a -> rb < length (ck_row ch) -> cb < length (ck_chan ch) ->
    matches full ncorr a ch tmin rb cb out ->
    block_equals full ncorr ch rb cb whole out.
  Proof.
    intros Sh P1 P2 Co Hm E Sup Hn Hrb Hcb [V1 [V2 [V3 F]]].
    destruct (predict_vis_spec L full nsrc nchan ncorr a Sh P1 P2 Sup Hn) as [o [E' [_ [_ [_ [_ G]]]]]].
    rewrite E in E'. injection E' as <-.
    split; [exact V1|]. split; [exact V2|]. split; [exact V3|]. intros r f Hr Hf i j C.
    rewrite (F r f Hr Hf i j C). symmetry. apply (G tmin Hm); [| |exact C].
    - rewrite <- (co_row _ _ _ _ Co). now apply in_range.
    - rewrite <- (co_chan _ _ _ _ Co). now apply in_range.
  Qed.

  Lemma min_exists (a : predict_in K) : 0 < p_nrow a -> exists tmin, is_min (p_nrow a) (p_time a) tmin.
  Proof. intros H. exists (zmin (p_nrow a) (p_time a)). now apply zmin_is_min. Qed.

  Theorem chunked_predict full nsrc nchan ncorr (a : predict_in K) ch whole :
    shapes full nsrc nchan ncorr a -> paired (p_dde1 a) (p_dde2 a) -> paired (p_die1 a) (p_die2 a) ->
    chunks_ok ch nsrc nchan a -> predict_vis a = Ok whole ->
    (p_dde1 a <> None \/ p_coh a <> None) ->
    forall rb cb v, rb < length (ck_row ch) -> cb < length (ck_chan ch) -> reduction_value ch a rb cb v ->
    exists s out, v = VVis s /\ finish_block ch a (Some s) rb cb = Ok out /\
      block_equals full ncorr ch rb cb whole out.
  Proof.
    intros Sh P1 P2 Co E Hs rb cb v Hrb Hcb Hv.
    pose proof (co_row _ _ _ _ Co) as Er. pose proof (co_row_pos _ _ _ _ Co rb Hrb) as Ep.
    pose proof (in_range _ _ _ Hrb Ep) as Hn0. assert (Hn : 0 < p_nrow a) by lia.
    destruct (min_exists a Hn) as [tmin Hm].
    assert (Hsum : exists s, v = VVis s /\ partial_sum full ncorr a ch tmin nsrc rb cb s).
    { destruct Hv as [dsk sched v HG HE|t v Hp HT|t e Hp HT].
      - exact (stream_value_ok L full nsrc nchan ncorr a ch Sh Co P1 P2 Hn tmin Hm Hs dsk sched rb cb v Hrb HG HE).
      - destruct (tree_ok L full nsrc nchan ncorr a ch Sh Co P1 P2 Hn tmin Hm Hs rb cb t Hrb Hp) as [w [Ew Pw]].
        rewrite HT in Ew. injection Ew as <-. eauto.
      - destruct (tree_ok L full nsrc nchan ncorr a ch Sh Co P1 P2 Hn tmin Hm Hs rb cb t Hrb Hp) as [w [Ew Pw]]. congruence. }
    destruct Hsum as [s [-> Ps]].
    destruct (finish_some L full nsrc nchan ncorr a ch Sh Co P1 P2 Hn tmin Hm rb cb s Hs Hrb Ps) as [out [Eo Mo]].
    exists s, out. split; [reflexivity|]. split; [exact Eo|].
    assert (Sup : supplied a) by (unfold supplied; tauto).
    exact (whole_block full nsrc nchan ncorr a ch rb cb whole out tmin Sh P1 P2 Co Hm E Sup Hn Hrb Hcb Mo).
  Qed.

  Theorem chunked_no_sum full nsrc nchan ncorr (a : predict_in K) ch whole :
    shapes full nsrc nchan ncorr a -> paired (p_dde1 a) (p_dde2 a) -> paired (p_die1 a) (p_die2 a) ->
    chunks_ok ch nsrc nchan a -> predict_vis a = Ok whole ->
    p_dde1 a = None -> p_coh a = None -> p_die1 a <> None ->
    forall rb cb, rb < length (ck_row ch) -> cb < length (ck_chan ch) ->
    exists out, finish_block ch a None rb cb = Ok out /\ block_equals full ncorr ch rb cb whole out.
  Proof.
    intros Sh P1 P2 Co E E1 E2 E3 rb cb Hrb Hcb.
    pose proof (co_row _ _ _ _ Co) as Er. pose proof (co_row_pos _ _ _ _ Co rb Hrb) as Ep.
    pose proof (in_range _ _ _ Hrb Ep) as Hn0. assert (Hn : 0 < p_nrow a) by lia.
    destruct (min_exists a Hn) as [tmin Hm].
    destruct (finish_none L full nsrc nchan ncorr a ch Sh Co P1 P2 Hn tmin Hm rb cb E1 E2 E3 Hrb) as [out [Eo Mo]].
    exists out. split; [exact Eo|].
    assert (Sup : supplied a) by (unfold supplied; tauto).
    exact (whole_block full nsrc nchan ncorr a ch rb cb whole out tmin Sh P1 P2 Co Hm E Sup Hn Hrb Hcb Mo).
  Qed.

  (* some schedule produces every output block, whatever the chunking *)
  Theorem stream_live full nsrc nchan ncorr (a : predict_in K) ch :
    shapes full nsrc nchan ncorr a -> chunks_ok ch nsrc nchan a ->
    paired (p_dde1 a) (p_dde2 a) -> (p_dde1 a <> None \/ p_coh a <> None) ->
    exists dsk, linear_graph ch a = Ok dsk /\
    forall rb cb, rb < length (ck_row ch) -> cb < length (ck_chan ch) ->
    exists sched v, execute predict_func dsk (input_store ch a) sched (out_key a rb cb) = Some v.
  Proof.
    intros Sh Co P1 Hs. destruct (graph_ok full nsrc nchan ncorr a ch Sh P1 Hs) as [dsk HG].
    exists dsk. split; [exact HG|]. intros rb cb Hrb Hcb.
    pose proof (co_row _ _ _ _ Co) as Er. pose proof (co_row_pos _ _ _ _ Co rb Hrb) as Ep.
    pose proof (in_range _ _ _ Hrb Ep) as Hn0. assert (Hn : 0 < p_nrow a) by lia.
    exact (stream_done full nsrc nchan ncorr a ch Sh Co P1 Hn Hs dsk rb cb Hrb Hcb HG).
  Qed.
End Final.

Lemma dask_checks_spec rows dde1 dde2 die1 die2 :
  (dask_checks rows dde1 dde2 die1 die2 = Ok tt /\ chunks_accepted rows 2 1 dde1 dde2 /\ chunks_accepted rows 1 0 die1 die2) \/
  (dask_checks rows dde1 dde2 die1 die2 = Raise ValueError /\
   ~ (chunks_accepted rows 2 1 dde1 dde2 /\ chunks_accepted rows 1 0 die1 die2)).
Proof.
  unfold dask_checks, chunks_accepted, one_chunk.
  assert (X : forall d1 d2 ant tim,
     (chunk_check rows d1 d2 ant tim = Ok tt /\ (forall c1 c2, d1 = Some c1 -> d2 = Some c2 ->
        c1 = c2 /\ list_sum (nth ant c1 []) = hd 0 (nth ant c1 []) /\ length (nth tim c1 []) = length rows)) \/
     (chunk_check rows d1 d2 ant tim = Raise ValueError /\ ~ (forall c1 c2, d1 = Some c1 -> d2 = Some c2 ->
        c1 = c2 /\ list_sum (nth ant c1 []) = hd 0 (nth ant c1 []) /\ length (nth tim c1 []) = length rows))).
  { intros d1 d2 ant tim. unfold chunk_check. destruct d1 as [c1|], d2 as [c2|];
      try (left; split; [reflexivity|intros; discriminate]).
    cbv zeta.
    destruct (Nat.eqb_spec (list_sum (nth ant c1 [])) (hd 0 (nth ant c1 []))) as [E1|N1];
      [|right; split; [reflexivity|]; intros H; destruct (H _ _ eq_refl eq_refl) as [_ [? _]]; contradiction].
    destruct (Nat.eqb_spec (list_sum (nth ant c2 [])) (hd 0 (nth ant c2 []))) as [E2|N2];
      [|right; split; [reflexivity|]; intros H; destruct (H _ _ eq_refl eq_refl) as [<- [? _]]; contradiction].
    destruct (list_eq_dec _ c1 c2) as [E3|N3]; cbn [negb];
      [|right; split; [reflexivity|]; intros H; destruct (H _ _ eq_refl eq_refl) as [? _]; contradiction].
    destruct (Nat.eqb_spec (length (nth tim c1 [])) (length rows)) as [E4|N4];
      [|right; split; [reflexivity|]; intros H; destruct (H _ _ eq_refl eq_refl) as [_ [_ ?]]; contradiction].
    left. split; [reflexivity|]. intros x y Hx Hy. injection Hx as <-. injection Hy as <-. auto. }
  destruct (X dde1 dde2 2 1) as [[-> H1]|[-> H1]]; cbn [bind];
    destruct (X die1 die2 1 0) as [[E2 H2]|[E2 H2]]; cbn [bind]; rewrite ?E2; try (right; split; [reflexivity|tauto]).
  left. auto.
Qed.

(* ---------- the number of tasks ---------- *)
Lemma product_length ns : length (product ns) = fold_right Nat.mul 1 ns.
Proof.
  induction ns as [|n ns IH]; [reflexivity|]. cbn [product fold_right]. rewrite flat_map_concat_map.
  assert (E : forall l, length (concat (map (fun i => map (cons i) (product ns)) l)) = length l * fold_right Nat.mul 1 ns).
  { induction l as [|x l IHl]; [reflexivity|]. cbn [map concat length]. rewrite app_length, map_length, IH, IHl. lia. }
  rewrite E, seq_length. reflexivity.
Qed.
Lemma mapM_length {A B} (f : A -> res B) l l' : mapM f l = Ok l' -> length l' = length l.
Proof.
  revert l'. induction l as [|x l IH]; intros l' H; cbn [mapM] in H; [injection H as <-; reflexivity|].
  destruct (f x); [|discriminate]. cbn [bind] in H. destruct (mapM f l) as [ys|]; [|discriminate]. injection H as <-. cbn [length]. now rewrite (IH ys).
Qed.
Lemma cdims_blocks ch n : fold_right Nat.mul 1 (map (nblocks (lr_dim_blocks ch)) (cdims n)) = 1.
Proof.
  unfold cdims. assert (E : forall k, fold_right Nat.mul 1 (map (nblocks (lr_dim_blocks ch)) (seq (4 + k) n)) = 1); [|exact (E 0)].
  induction n as [|n IH]; intros k; [reflexivity|]. cbn [seq map fold_right]. replace (S (4 + k)) with (4 + S k) by lia. rewrite IH. reflexivity.
Qed.
Lemma graph_length {K : cops} (a : predict_in K) ch dsk : linear_graph ch a = Ok dsk ->
  lr_len ([0; 3] ++ cdims (ncorr_dims a)) (lr_dim_blocks ch) = length (ck_row ch) * length (ck_chan ch) /\
  length dsk = length (ck_src ch) * (length (ck_row ch) * length (ck_chan ch)).
Proof.
  intros H. assert (E : fold_right Nat.mul 1 (map (nblocks (lr_dim_blocks ch)) ([0; 3] ++ cdims (ncorr_dims a))) = length (ck_row ch) * length (ck_chan ch)).
  { cbn [app map fold_right]. rewrite cdims_blocks. cbn [nblocks lr_dim_blocks]. lia. }
  split; [exact E|]. unfold linear_graph, lr_dict in H. destruct (existsb _ _); [discriminate|]. apply mapM_length in H. rewrite H, product_length.
  cbn [map fold_right] in *. rewrite E. reflexivity.
Qed.
