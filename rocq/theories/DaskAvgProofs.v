(* Proofs for C87. *)
From Verif Require Import Prelude PreludeFacts AvgModel AvgModel2 AvgSpec AvgSpec2 AvgProofs4 AvgProofs5 AvgProofs6 AvgProofs7
     DaskAvgModel DaskAvgSpec.

(* ---------- chunks ---------- *)
Lemma list_sum_firstn l : forall k, k <= length l -> list_sum (firstn k l) <= list_sum l.
Proof.
  induction l as [|x l IH]; intros [|k] H; cbn in *; try lia.
  specialize (IH k ltac:(lia)). cbn in IH. unfold list_sum in *. lia.
Qed.
Lemma chunk_end l : forall k, k < length l -> chunk_start l k + chunk_size l k <= list_sum l.
Proof.
  unfold chunk_start, chunk_size. induction l as [|x l IH]; intros [|k] H; cbn in *; try lia.
  specialize (IH k ltac:(lia)). unfold list_sum in *. lia.
Qed.
Lemma chunk_last l : forall k, S k = length l -> chunk_start l k + chunk_size l k = list_sum l.
Proof.
  unfold chunk_start, chunk_size. induction l as [|x l IH]; intros [|k] H; cbn in *; try lia.
  - destruct l; [cbn; lia|discriminate].
  - specialize (IH k ltac:(lia)). unfold list_sum in *. lia.
Qed.
Lemma chunk_start_S l k : k < length l -> chunk_start l (S k) = chunk_start l k + chunk_size l k.
Proof.
  unfold chunk_start, chunk_size. revert k. induction l as [|x l IH]; intros [|k] H; cbn in *; try lia.
  specialize (IH k ltac:(lia)). unfold list_sum in *. cbn in *. lia.
Qed.
Lemma aligned_start bin l : aligned bin l -> forall k, k < length l -> exists m, chunk_start l k = m * bin.
Proof.
  intros A k. induction k as [|k IH]; intros H; [exists 0; reflexivity|].
  destruct (IH ltac:(lia)) as [m Em]. destruct (A k H) as [m' Em'].
  exists (m + m'). rewrite chunk_start_S by lia. unfold chunk_size. rewrite Em, Em'. lia.
Qed.

Lemma filter_none {A} (p : A -> bool) l : (forall y, In y l -> p y = false) -> filter p l = [].
Proof.
  induction l as [|x l IH]; intros H; [reflexivity|]. cbn [filter]. rewrite H by now left.
  apply IH. intros y Hy. apply H. now right.
Qed.
Lemma seq_shift_by n : forall a s, seq (a + s) n = map (fun ch => a + ch) (seq s n).
Proof.
  induction n as [|n IH]; intros a s; [reflexivity|]. cbn [seq map]. f_equal. rewrite <- IH. f_equal. lia.
Qed.

(* channels of bin b of a block, counted from the start of the band *)
Lemma chan_bin_block bs N f0 nf b : 0 < bs ->
  (exists m, f0 = m * bs) -> (f0 + nf = N \/ f0 + nf <= N /\ exists m, nf = m * bs) ->
  b < (nf + bs - 1) / bs ->
  filter (fun ch => Nat.eqb (ch / bs) (f0 / bs + b)) (seq 0 N) =
  map (fun ch => f0 + ch) (filter (fun ch => Nat.eqb (ch / bs) b) (seq 0 nf)).
Proof.
  intros Hbs [m ->] Hn Hb. rewrite Nat.div_mul by lia.
  assert (Hle : m * bs + nf <= N) by (destruct Hn as [|[]]; lia).
  replace N with (m * bs + (nf + (N - m * bs - nf))) by lia.
  rewrite !seq_app, !filter_app. cbn [Nat.add].
  rewrite (filter_none _ (seq 0 (m * bs))); [|].
  2:{ intros y Hy. apply in_seq in Hy. apply Nat.eqb_neq.
      pose proof (Nat.div_lt_upper_bound y bs m ltac:(lia) ltac:(nia)). lia. }
  rewrite (filter_none _ (seq (m * bs + nf) _)); [|].
  2:{ intros y Hy. apply in_seq in Hy. apply Nat.eqb_neq.
      destruct Hn as [Hn|[_ [m' ->]]]; [lia|].
      assert (b < m'). { eapply Nat.lt_le_trans; [exact Hb|].
        replace (m' * bs + bs - 1) with (bs - 1 + m' * bs) by nia. rewrite Nat.div_add by lia.
        rewrite Nat.div_small; lia. }
      pose proof (Nat.div_le_lower_bound y bs (m + m') ltac:(lia) ltac:(nia)). lia. }
  rewrite app_nil_r. cbn [app].
  replace (seq (m * bs) nf) with (map (fun ch => m * bs + ch) (seq 0 nf)).
  2:{ rewrite <- seq_shift_by. f_equal. lia. }
  induction (seq 0 nf) as [|y l IH]; [reflexivity|]. cbn [map filter]. rewrite IH.
  replace ((m * bs + y) / bs) with (m + y / bs) by (rewrite (Nat.add_comm (m * bs)), Nat.div_add by lia; lia).
  destruct (Nat.eqb_spec (m + y / bs) (m + b)), (Nat.eqb_spec (y / bs) b); try lia; reflexivity.
Qed.

(* ---------- one block of cells ---------- *)
Section Block.
  Context (K : farith).

  Lemma bank_add_block (x : chan_cols K) rr ff cc i ch co b :
    bank_add K {| in_rweight := option_map (block2 rr cc) (in_rweight K x);
                  in_vis := option_map (block3 rr ff cc) (in_vis K x);
                  in_flag := option_map (block3 rr ff cc) (in_flag K x);
                  in_wspec := option_map (block3 rr ff cc) (in_wspec K x);
                  in_sspec := option_map (block3 rr ff cc) (in_sspec K x) |} i ch co b =
    bank_add K x (rr + i) (ff + ch) (cc + co) b.
  Proof.
    unfold bank_add. cbn [in_rweight in_vis in_wspec in_sspec].
    destruct (in_vis K x), (in_wspec K x), (in_rweight K x), (in_sspec K x); reflexivity.
  Qed.
  Lemma cell_add_block (x : chan_cols K) rr ff cc i ch co b :
    cell_add K {| in_rweight := option_map (block2 rr cc) (in_rweight K x);
                  in_vis := option_map (block3 rr ff cc) (in_vis K x);
                  in_flag := option_map (block3 rr ff cc) (in_flag K x);
                  in_wspec := option_map (block3 rr ff cc) (in_wspec K x);
                  in_sspec := option_map (block3 rr ff cc) (in_sspec K x) |} i ch co b =
    cell_add K x (rr + i) (ff + ch) (cc + co) b.
  Proof.
    unfold cell_add. rewrite !bank_add_block. unfold is_chan_flagged. cbn [in_flag].
    destruct (in_flag K x); reflexivity.
  Qed.

  Lemma grid_map_r (h : nat -> nat) li lc : grid li (map h lc) = map (fun p => (fst p, h (snd p))) (grid li lc).
  Proof.
    induction li as [|i li IH]; [reflexivity|]. cbn. unfold grid in IH. rewrite IH, map_app. f_equal.
    rewrite !map_map. reflexivity.
  Qed.
  Lemma fold_left_map' {A B S} (g : S -> B -> S) (h : A -> B) l : forall s,
    fold_left g (map h l) s = fold_left (fun s a => g s (h a)) l s.
  Proof. induction l as [|a l IH]; intros s; [reflexivity|]. cbn. apply IH. Qed.
  Lemma fold_left_ext' {A S} (g h : S -> A -> S) l : (forall s a, g s a = h s a) -> forall s, fold_left g l s = fold_left h l s.
  Proof. intros E. induction l as [|a l IH]; intros s; [reflexivity|]. cbn. rewrite E. apply IH. Qed.

  Lemma acc_block bs nr N f0 nf c0 nc C r0 rmap cmap cmap' fr oflag (x : chan_cols K) r f c :
    0 < bs -> (exists m, f0 = m * bs) -> (f0 + nf = N \/ f0 + nf <= N /\ exists m, nf = m * bs) ->
    c0 + nc <= C -> (forall ch, ch < N -> cmap ch = ch / bs) -> (forall ch, ch < nf -> cmap' ch = ch / bs) ->
    f < (nf + bs - 1) / bs -> c < nc ->
    accumulate K nr nf nc rmap cmap' fr oflag
      {| in_rweight := option_map (block2 r0 c0) (in_rweight K x); in_vis := option_map (block3 r0 f0 c0) (in_vis K x);
         in_flag := option_map (block3 r0 f0 c0) (in_flag K x); in_wspec := option_map (block3 r0 f0 c0) (in_wspec K x);
         in_sspec := option_map (block3 r0 f0 c0) (in_sspec K x) |} r f c =
    accumulate K nr N C rmap cmap fr oflag
      {| in_rweight := option_map (block2 r0 0) (in_rweight K x); in_vis := option_map (block3 r0 0 0) (in_vis K x);
         in_flag := option_map (block3 r0 0 0) (in_flag K x); in_wspec := option_map (block3 r0 0 0) (in_wspec K x);
         in_sspec := option_map (block3 r0 0 0) (in_sspec K x) |} r (f0 / bs + f) (c0 + c).
  Proof.
    intros Hbs Hf0 Hn HC Hm Hm' Hf Hc. unfold accumulate.
    rewrite (scatter3 nr nf nc (fun i => flags_match fr oflag i (rmap i)) rmap cmap' (fun i ch co s => cell_add K _ i ch co s) _ r f c Hc).
    rewrite (scatter3 nr N C (fun i => flags_match fr oflag i (rmap i)) rmap cmap (fun i ch co s => cell_add K _ i ch co s) _ r (f0 / bs + f) (c0 + c)) by lia.
    rewrite (filter_ext_in (fun ch => Nat.eqb (cmap ch) (f0 / bs + f)) (fun ch => Nat.eqb (ch / bs) (f0 / bs + f)) (seq 0 N))
      by (intros ch Hch; apply in_seq in Hch; rewrite Hm by lia; reflexivity).
    rewrite (filter_ext_in (fun ch => Nat.eqb (cmap' ch) f) (fun ch => Nat.eqb (ch / bs) f) (seq 0 nf))
      by (intros ch Hch; apply in_seq in Hch; rewrite Hm' by lia; reflexivity).
    rewrite (chan_bin_block bs N f0 nf f Hbs Hf0 Hn) by lia.
    rewrite grid_map_r, fold_left_map'. apply fold_left_ext'. intros s [i ch]. cbn [fst snd].
    rewrite !cell_add_block. reflexivity.
  Qed.

  Lemma cells_of_block bs nr N f0 nf c0 nc C r0 orows OC oc rmap cmap cmap' fr oflag (x : chan_cols K) out :
    0 < bs -> (exists m, f0 = m * bs) -> (f0 + nf = N \/ f0 + nf <= N /\ exists m, nf = m * bs) ->
    c0 + nc <= C -> (forall ch, ch < N -> cmap ch = ch / bs) -> (forall ch, ch < nf -> cmap' ch = ch / bs) ->
    OC = (N + bs - 1) / bs -> oc = (nf + bs - 1) / bs ->
    row_chan_average K nr N C orows OC rmap cmap fr oflag
      {| in_rweight := option_map (block2 r0 0) (in_rweight K x); in_vis := option_map (block3 r0 0 0) (in_vis K x);
         in_flag := option_map (block3 r0 0 0) (in_flag K x); in_wspec := option_map (block3 r0 0 0) (in_wspec K x);
         in_sspec := option_map (block3 r0 0 0) (in_sspec K x) |} = Ok out ->
    exists blk, row_chan_average K nr nf nc orows oc rmap cmap' fr oflag
      {| in_rweight := option_map (block2 r0 c0) (in_rweight K x); in_vis := option_map (block3 r0 f0 c0) (in_vis K x);
         in_flag := option_map (block3 r0 f0 c0) (in_flag K x); in_wspec := option_map (block3 r0 f0 c0) (in_wspec K x);
         in_sspec := option_map (block3 r0 f0 c0) (in_sspec K x) |} = Ok blk /\
      forall r f c, r < orows -> f < oc -> c < nc -> blk r f c = out r (f0 / bs + f) (c0 + c).
  Proof.
    intros Hbs Hf0 Hn HC Hm Hm' EOC Eoc E. unfold row_chan_average in *.
    set (a := accumulate K nr N C _ _ _ _ _) in E.
    set (a' := accumulate K nr nf nc _ _ _ _ _).
    assert (X : forall r f c, f < oc -> c < nc -> a' r f c = a r (f0 / bs + f) (c0 + c)).
    { intros r f c Hf Hc. subst oc. unfold a, a'. now apply acc_block. }
    assert (Hlt : forall f, f < oc -> f0 / bs + f < OC).
    { intros f Hf. subst OC oc. destruct Hf0 as [m ->]. rewrite Nat.div_mul by lia.
      assert (m * bs + nf <= N) by (destruct Hn as [|[]]; lia).
      apply Nat.lt_le_trans with (m + (nf + bs - 1) / bs); [lia|].
      replace (m + (nf + bs - 1) / bs) with ((nf + bs - 1 + m * bs) / bs) by (rewrite Nat.div_add by lia; lia).
      apply Nat.div_le_mono; lia. }
    pose proof (normalise_ok K _ _ _ _ _ E) as N1.
    destruct (normalise_total K orows oc nc a') as [blk Eb].
    { intros r f c Hr Hf Hc. rewrite X by assumption. exists (out r (f0 / bs + f) (c0 + c)). apply N1; [assumption|apply Hlt; assumption|lia]. }
    exists blk. split; [exact Eb|]. intros r f c Hr Hf Hc.
    pose proof (normalise_ok K _ _ _ _ _ Eb r f c Hr Hf Hc) as N2. rewrite X in N2 by assumption.
    rewrite N1 in N2; [congruence|assumption|apply Hlt; assumption|lia].
  Qed.
End Block.

Lemma forM_raise_at {S} m (body : nat -> S -> res S) : forall s e, forM m body s = Raise e -> exists k s', k < m /\ body k s' = Raise e.
Proof.
  induction m as [|m IH]; intros s e E; [discriminate|]. cbn [forM] in E.
  destruct (forM m body s) as [s'|e'] eqn:Em; cbn [bind] in E.
  - exists m, s'. split; [lia|exact E].
  - injection E as <-. destruct (IH s e' Em) as (k & s' & Hk & H). exists k, s'. split; [lia|exact H].
Qed.
Lemma normalise_raise K orows ochans ncorr a e : normalise K orows ochans ncorr a = Raise e ->
  exists r f c, r < orows /\ f < ochans /\ c < ncorr /\ cell_norm K (a r f c) = Raise e.
Proof.
  unfold normalise. intros E. apply forM_raise_at in E. destruct E as (r & s1 & Hr & E).
  apply forM_raise_at in E. destruct E as (f & s2 & Hf & E). apply forM_raise_at in E. destruct E as (c & s3 & Hc & E).
  exists r, f, c. repeat split; try assumption. destruct (cell_norm K (a r f c)); [discriminate|]. cbn [bind] in E. congruence.
Qed.

(* ---------- extents ---------- *)
Lemma conflict_const l N : (forall e, In e l -> e = N) -> ~ extents_conflict l.
Proof.
  intros H (l1 & a & l2 & b & l3 & -> & _ & Hab). apply Hab. transitivity N; [|symmetry]; apply H;
    rewrite ?in_app_iff; cbn; rewrite ?in_app_iff; cbn; auto 10.
Qed.
Lemma common_const l N d : (forall e, In e l -> e = N) -> l <> [] -> common_extent l d -> d = N.
Proof.
  intros H Hne [A B]. destruct l as [|e l]; [congruence|]. pose proof (H e (or_introl eq_refl)) as ->.
  destruct (B N (or_introl eq_refl)) as [->|]; [|congruence]. destruct A as [|A]; [assumption|]. auto.
Qed.
Lemma in_present {A} (l : list (option A)) a : In a (present l) <-> In (Some a) l.
Proof.
  unfold present. rewrite in_flat_map. split.
  - intros ([b|] & H1 & H2); [|destruct H2]. destruct H2 as [->|[]]. exact H1.
  - intros H. exists (Some a). split; [exact H|now left].
Qed.
Lemma chan_corrs_const vis flag ws ss fr wi eb rs N C :
  (forall s, In (Some s) [vis; flag; ws; ss] -> s = (N, C)) -> (forall n, In (Some n) [fr; wi; eb; rs] -> n = N) ->
  exists x y, chan_corrs vis flag ws ss fr wi eb rs = Ok (x, y) /\
    ((exists s, In (Some s) [vis; flag; ws; ss]) -> x = N /\ y = C) /\
    ((exists n, In (Some n) [fr; wi; eb; rs]) -> x = N).
Proof.
  intros H1 H2. pose proof (chan_corrs_spec vis flag ws ss fr wi eb rs) as S. cbv zeta in S.
  assert (P1 : forall e, In e (chan_dims vis flag ws ss fr wi eb rs) -> e = N).
  { intros e He. apply in_present in He. cbn in H1, H2, He.
    destruct He as [He|[He|[He|[He|He]]]]; [..|apply H2; tauto].
    all: match type of He with option_map fst ?o = _ => destruct o as [s|] eqn:Eo; [|discriminate He] end; injection He as <-;
      rewrite (H1 s) by auto; reflexivity. }
  assert (P2 : forall e, In e (corr_dims vis flag ws ss) -> e = C).
  { intros e He. apply in_present in He. cbn in H1, He.
    destruct He as [He|[He|[He|[He|[]]]]].
    all: match type of He with option_map snd ?o = _ => destruct o as [s|] eqn:Eo; [|discriminate He] end; injection He as <-;
      rewrite (H1 s) by auto; reflexivity. }
  destruct (chan_corrs vis flag ws ss fr wi eb rs) as [[x y]|e].
  - exists x, y. split; [reflexivity|]. destruct S as (_ & _ & Sx & Sy). split.
    + intros [s Hs]. split.
      * apply (common_const _ N x P1); [|exact Sx]. intros Z. 
        assert (I : In (fst s) (chan_dims vis flag ws ss fr wi eb rs)).
        { apply in_present. cbn in Hs |- *. destruct Hs as [->|[->|[->|[->|[]]]]]; cbn; auto. }
        rewrite Z in I. destruct I.
      * apply (common_const _ C y P2); [|exact Sy]. intros Z.
        assert (I : In (snd s) (corr_dims vis flag ws ss)).
        { apply in_present. cbn in Hs |- *. destruct Hs as [->|[->|[->|[->|[]]]]]; cbn; auto. }
        rewrite Z in I. destruct I.
    + intros [n Hn]. apply (common_const _ N x P1); [|exact Sx]. intros Z.
      assert (I : In n (chan_dims vis flag ws ss fr wi eb rs)) by (apply in_present; cbn in Hn |- *; tauto).
      rewrite Z in I. destruct I.
  - exfalso. destruct S as [_ [S|S]]; [exact (conflict_const _ N P1 S)|exact (conflict_const _ C P2 S)].
Qed.

(* ---------- one block of a channel vector ---------- *)
Section Vec.
  Context (K : farith) (bs N f0 nf : nat) (cmap cmap' : arr nat).
  Hypothesis Hbs : 0 < bs.
  Hypothesis Hf0 : exists m, f0 = m * bs.
  Hypothesis Hn : f0 + nf = N \/ f0 + nf <= N /\ exists m, nf = m * bs.
  Hypothesis Hm : forall ch, ch < N -> cmap ch = ch / bs.
  Hypothesis Hm' : forall ch, ch < nf -> cmap' ch = ch / bs.

  Lemma scatter_vec {S} (g : nat -> S -> S) a0 (b : nat) : b < (nf + bs - 1) / bs ->
    for_ nf (fun ch a => upd a (cmap' ch) (g (f0 + ch) (a (cmap' ch)))) (fun _ => a0) b =
    for_ N (fun ch a => upd a (cmap ch) (g ch (a (cmap ch)))) (fun _ => a0) (f0 / bs + b).
  Proof.
    intros Hb. rewrite (scatter1 (fun _ => true) cmap' (fun ch => g (f0 + ch)) nf), (scatter1 (fun _ => true) cmap g N).
    cbn [andb].
    rewrite (filter_ext_in (fun ch => Nat.eqb (cmap ch) (f0 / bs + b)) (fun ch => Nat.eqb (ch / bs) (f0 / bs + b)) (seq 0 N))
      by (intros ch Hch; apply in_seq in Hch; rewrite Hm by lia; reflexivity).
    rewrite (filter_ext_in (fun ch => Nat.eqb (cmap' ch) b) (fun ch => Nat.eqb (ch / bs) b) (seq 0 nf))
      by (intros ch Hch; apply in_seq in Hch; rewrite Hm' by lia; reflexivity).
    rewrite (chan_bin_block bs N f0 nf b Hbs Hf0 Hn Hb), fold_left_map'. reflexivity.
  Qed.

  Lemma chan_sum_block (col : arr (fnum K)) b : b < (nf + bs - 1) / bs ->
    chan_sum K nf cmap' (block1 f0 col) b = chan_sum K N cmap col (f0 / bs + b).
  Proof.
    intros Hb. exact (scatter_vec (fun ch s => fadd K s (col ch)) (AvgModel2.f0 K) b Hb).
  Qed.
  Lemma chan_counts_block b : b < (nf + bs - 1) / bs -> chan_counts nf cmap' b = chan_counts N cmap (f0 / bs + b).
  Proof. intros Hb. exact (scatter_vec (fun _ s => S s) 0 b Hb). Qed.
  Lemma bin_in_band b : b < (nf + bs - 1) / bs -> f0 / bs + b < (N + bs - 1) / bs.
  Proof.
    intros Hb. destruct Hf0 as [m ->]. rewrite Nat.div_mul by lia.
    assert (m * bs + nf <= N) by (destruct Hn as [|[]]; lia).
    apply Nat.lt_le_trans with (m + (nf + bs - 1) / bs); [lia|].
    replace (m + (nf + bs - 1) / bs) with ((nf + bs - 1 + m * bs) / bs) by (rewrite Nat.div_add by lia; lia).
    apply Nat.div_le_mono; lia.
  Qed.
  Lemma chan_mean_block (col : arr (fnum K)) b : b < (nf + bs - 1) / bs ->
    chan_freq_mean K nf ((nf + bs - 1) / bs) cmap' (block1 f0 col) b =
    chan_freq_mean K N ((N + bs - 1) / bs) cmap col (f0 / bs + b).
  Proof.
    intros Hb. unfold chan_freq_mean.
    rewrite (for_sqrt K ((nf + bs - 1) / bs) (fun b v => fdivn K v (chan_counts nf cmap' b))).
    rewrite (for_sqrt K ((N + bs - 1) / bs) (fun b v => fdivn K v (chan_counts N cmap b))).
    pose proof (bin_in_band b Hb). destruct (Nat.ltb_spec b ((nf + bs - 1) / bs)); [|lia].
    destruct (Nat.ltb_spec (f0 / bs + b) ((N + bs - 1) / bs)); [|lia].
    rewrite chan_sum_block, chan_counts_block by assumption. reflexivity.
  Qed.
End Vec.

Lemma chunk_find l : forall i, i < list_sum l -> exists k, k < length l /\ chunk_start l k <= i < chunk_start l k + chunk_size l k.
Proof.
  unfold chunk_start, chunk_size. induction l as [|x l IH]; intros i H; [cbn in H; lia|].
  change (list_sum (x :: l)) with (x + list_sum l) in H. destruct (Nat.lt_ge_cases i x) as [L|L].
  - exists 0. cbn. lia.
  - destruct (IH (i - x) ltac:(lia)) as (k & Hk & Hi). exists (S k). cbn [firstn nth length].
    change (list_sum (x :: firstn k l)) with (x + list_sum (firstn k l)). lia.
Qed.

Section Main.
  Context (F : arith) (K : farith) (ch : avg_chunks) (t : tc_input F K) (ai : arr Z).
  Notation bs := (t_bin_size F K t).
  Notation rows := (ch_rows ch). Notation chans := (ch_chans ch). Notation corrs := (ch_corrs ch).
  Notation cubes := [t_vis_sh F K t; t_flag_sh F K t; t_ws_sh F K t; t_ss_sh F K t].

  Lemma given_iff {A} (o : option A) : given o = true <-> o <> None.
  Proof. destruct o; cbn; intuition congruence. Qed.
  Lemma channel_test : any_cube F K t || any_vec F K t = true <-> has_channels F K t.
  Proof.
    unfold any_cube, any_vec, has_channels. rewrite !orb_true_iff, !given_iff. split.
      - intros [[[[E|E]|E]|E]|[[[E|E]|E]|E]]; eexists; (split; [|exact E]); cbn; auto 10.
      - intros (b & Hb & E). cbn in Hb. repeat (destruct Hb as [<-|Hb]; [tauto|]). destruct Hb.
  Qed.
  Lemma corr_test : any_cube F K t || given (in_rweight K (t_cells F K t)) = true <-> has_correlations F K t.
  Proof.
    unfold any_cube, has_correlations. rewrite !orb_true_iff, !given_iff. split.
      - intros [[[[E|E]|E]|E]|E]; eexists; (split; [|exact E]); cbn; auto 10.
      - intros (b & Hb & E). cbn in Hb. repeat (destruct Hb as [<-|Hb]; [tauto|]). destruct Hb.
  Qed.
  Lemma dask_errors :
    (~ has_channels F K t -> dask_time_and_channel F K ch t ai = Raise TypeError) /\
    (has_channels F K t -> ~ has_correlations F K t -> dask_time_and_channel F K ch t ai = Raise ValueError) /\
    (has_channels F K t -> has_correlations F K t -> bs = 0 -> dask_time_and_channel F K ch t ai = Raise ZeroDivision) /\
    (has_channels F K t -> has_correlations F K t -> 0 < bs -> exists d, dask_time_and_channel F K ch t ai = Ok d).
  Proof.
    pose proof channel_test as A. pose proof corr_test as B.
    unfold dask_time_and_channel.
    destruct (any_cube F K t || any_vec F K t); destruct (any_cube F K t || given (in_rweight K (t_cells F K t)));
      destruct (Nat.eqb_spec bs 0); cbn [negb]; repeat split; intros; try tauto; try lia; try reflexivity; try (eexists; reflexivity);
      exfalso; intuition congruence.
  Qed.
  Lemma dask_ok_iff d : dask_time_and_channel F K ch t ai = Ok d -> has_channels F K t /\ has_correlations F K t /\ 0 < bs.
  Proof.
    intros E. pose proof channel_test as A. pose proof corr_test as B. unfold dask_time_and_channel in E.
    destruct (any_cube F K t || any_vec F K t); [|discriminate]. destruct (any_cube F K t || given (in_rweight K (t_cells F K t))); [|discriminate].
    cbn [negb] in E. destruct (Nat.eqb_spec bs 0); [discriminate|]. split; [now apply A|]. split; [now apply B|lia].
  Qed.

  Section Chunk.
  Context (d : dask_avg F K) (r : nat).
  Hypothesis T : tiles F K ch t.
  Hypothesis A : aligned bs chans.
  Hypothesis Hr : r < length rows.
  Hypothesis Ed : dask_time_and_channel F K ch t ai = Ok d.
  Let r0 := chunk_start rows r.
  Let nr := chunk_size rows r.
  Notation N := (list_sum chans). Notation C := (list_sum corrs).
  Let t' := only_rows F K r0 nr t.

  Lemma d_fields : da_row_meta F K d = row_meta_block F K ch t /\ da_row F K d = row_average_block F K ch t ai /\
    da_chan F K d = chan_average_block F K ch t /\ da_cells F K d = cells_block F K ch t /\
    da_out_chans F K d = (fun k => snd (chan_meta_block F K ch t k)).
  Proof.
    pose proof Ed as E. unfold dask_time_and_channel in E. destruct (negb _) in E; [discriminate|]. destruct (negb _) in E; [discriminate|].
    destruct (Nat.eqb bs 0); [discriminate|]. injection E as <-. repeat split.
  Qed.

  Lemma nchan_numpy : exists y, chan_corrs (t_vis_sh F K t) (t_flag_sh F K t) (t_ws_sh F K t) (t_ss_sh F K t)
      (dims K (t_freq F K t)) (dims K (t_width F K t)) (dims K (t_ebw F K t)) (dims K (t_res F K t)) = Ok (N, y).
  Proof.
    destruct (dask_ok_iff d Ed) as (HC & _ & _). destruct T as (_ & T1 & T2 & _).
    destruct (chan_corrs_const (t_vis_sh F K t) (t_flag_sh F K t) (t_ws_sh F K t) (t_ss_sh F K t)
      (dims K (t_freq F K t)) (dims K (t_width F K t)) (dims K (t_ebw F K t)) (dims K (t_res F K t)) N C) as (x & y & E & E1 & E2).
    - exact T1.
    - intros n Hn. assert (X : forall o, In o [t_freq F K t; t_width F K t; t_ebw F K t; t_res F K t] -> dims K o = Some n -> n = N).
      { intros [[m a]|] Ho Eo; [|discriminate]. cbn in Eo. injection Eo as <-. exact (T2 m a Ho). }
      cbn in Hn, X. destruct Hn as [Hn|[Hn|[Hn|[Hn|[]]]]]; (eapply X; [|exact Hn]); auto.
    - exists y. rewrite E. f_equal. f_equal. destruct HC as (b & Hb & HC). cbn [In] in Hb, E1, E2.
      repeat (destruct Hb as [<-|Hb]); [..|destruct Hb];
      match type of HC with ?o <> None => destruct o as [s|] eqn:Eo; [|congruence] end;
      first [apply E1; exists s; rewrite <- ?Eo; tauto
            |apply E2; exists (fst s); unfold dims; rewrite ?Eo; cbn; tauto].
  Qed.

  Lemma merged : flag_row_block F K ch t r =
    merge_flags nr (fst (flag_ext F K t')) (snd (flag_ext F K t')) (t_flag_row F K t') (in_flag K (t_cells F K t')).
  Proof.
    unfold flag_row_block, flag_ext. fold r0. fold nr. destruct T as (_ & T1 & _ & _ & T4).
    cbn [t' only_rows t_flag_sh t_flag_row t_cells in_flag].
    destruct (t_flag_sh F K t) as [s|] eqn:Es.
    - assert (s = (N, C)) as -> by (apply T1; cbn; auto). reflexivity.
    - destruct (in_flag K (t_cells F K t)) as [f|]; [exfalso; apply (proj1 T4); congruence|].
      cbn. destruct (t_flag_row F K t); reflexivity.
  Qed.

  Lemma rows_same fr rm : flag_row_block F K ch t r = Ok fr ->
    row_meta_block F K ch t r = Ok rm <->
    row_mapper F (t_n F K t') (t_time F K t') (t_interval F K t') (t_ant1 F K t') (t_ant2 F K t') fr (t_secs F K t') = Ok rm.
  Proof. intros E. unfold row_meta_block. rewrite E. cbn [bind]. reflexivity. Qed.

  Lemma chunk_pos k : k < length chans -> chunk_start chans k + chunk_size chans k = N \/
    chunk_start chans k + chunk_size chans k <= N /\ exists m, chunk_size chans k = m * bs.
  Proof.
    intros Hk. destruct (Nat.eq_dec (S k) (length chans)) as [E|E]; [left; now apply chunk_last|right].
    split; [now apply chunk_end|]. apply A. lia.
  Qed.

  Theorem chunk_ok out : numpy_chunk F K ch t ai r = Ok out ->
    da_row_meta F K d r = Ok (to_rows F K out) /\
    (length corrs = 1 -> da_row F K d r = Ok (to_row F K out)) /\
    (forall k f, k < length chans -> f < da_out_chans F K d k ->
       let at_ g := same_entry (g (da_chan F K d k)) f (g (to_chan F K out)) (chunk_start chans k / bs + f) in
       at_ (ca_freq K) /\ at_ (ca_width K) /\ at_ (ca_ebw K) /\ at_ (ca_res K)) /\
    ((exists s, In (Some s) cubes) -> forall k c, k < length chans -> c < length corrs ->
       exists blk, da_cells F K d r k c = Ok blk /\
         forall o f co, o < rm_out_rows F (to_rows F K out) -> f < da_out_chans F K d k -> co < chunk_size corrs c ->
           blk o f co = to_cells F K out o (chunk_start chans k / bs + f) (chunk_start corrs c + co)).
  Proof.
    intros E. destruct d_fields as (D1 & D2 & D3 & D4 & D5). rewrite D1, D2, D3, D4, D5.
    destruct (dask_ok_iff d Ed) as (HC & _ & Hbs).
    unfold numpy_chunk in E. fold r0 nr t' in E. rewrite tc_unfold in E.
    destruct nchan_numpy as [y Ey].
    change (chan_corrs (t_vis_sh F K t') (t_flag_sh F K t') (t_ws_sh F K t') (t_ss_sh F K t')
              (dims K (t_freq F K t')) (dims K (t_width F K t')) (dims K (t_ebw F K t')) (dims K (t_res F K t')))
      with (chan_corrs (t_vis_sh F K t) (t_flag_sh F K t) (t_ws_sh F K t) (t_ss_sh F K t)
              (dims K (t_freq F K t)) (dims K (t_width F K t)) (dims K (t_ebw F K t)) (dims K (t_res F K t))) in E.
    rewrite Ey in E. cbn [bind fst] in E.
    change (t_n F K t') with nr in E. rewrite <- merged in E.
    destruct (flag_row_block F K ch t r) as [fr|] eqn:Efr; [|discriminate]. cbn [bind] in E.
    change nr with (t_n F K t') in E at 1.
    match type of E with bind ?m _ = _ => destruct m as [rm|] eqn:Erm; [|discriminate] end. cbn [bind] in E.
    apply (proj2 (rows_same fr rm Efr)) in Erm.
    change (t_vis_sh F K t') with (t_vis_sh F K t) in E. change (t_flag_sh F K t') with (t_flag_sh F K t) in E.
    change (t_ws_sh F K t') with (t_ws_sh F K t) in E. change (t_ss_sh F K t') with (t_ss_sh F K t) in E.
    change (t_bin_size F K t') with bs in E.
    destruct T as (_ & T1 & T2 & T3 & T4).
    destruct (chan_corrs_const (t_vis_sh F K t) (t_flag_sh F K t) (t_ws_sh F K t) (t_ss_sh F K t) None None None None N C T1) as (x2 & y2 & E2 & E2a & _).
    { cbn. intros n Hn. intuition discriminate. }
    rewrite E2 in E. cbn [bind snd] in E. cbv zeta in E.
    pose proof (channel_mapper_spec N bs Hbs) as CM. destruct (channel_mapper N bs) as [cmap OC]. destruct CM as (CM1 & CM2 & _). cbn [fst snd] in E.
    match type of E with bind ?m _ = _ => destruct m as [rc|] eqn:Erc; [|discriminate] end. cbn [bind] in E. injection E as <-.
    cbn [to_rows to_row to_chan to_cells to_out_chans].
    split; [exact Erm|]. split; [|split].
    - intros HL. unfold row_average_block. fold r0 nr. rewrite Efr. cbn [bind]. rewrite Erm. cbn [bind]. f_equal.
      assert (Ec : chunk_size corrs 0 = C).
      { destruct corrs as [|c [|? ?]]; try discriminate. cbn. lia. }
      replace (row_cols_block K ch r (t_rows F K t)) with (t_rows F K t'); [reflexivity|].
      unfold row_cols_block. cbn [t' only_rows t_rows]. fold r0. rewrite Ec. f_equal.
      + destruct (in_weight K (t_rows F K t)) as [[n w]|] eqn:Ew; [|reflexivity]. cbn.
        rewrite (T3 n w) by (cbn; auto). reflexivity.
      + destruct (in_sigma K (t_rows F K t)) as [[n w]|] eqn:Ew; [|reflexivity]. cbn.
        rewrite (T3 n w) by (cbn; auto). reflexivity.
    - intros k f Hk. unfold chan_average_block, chan_meta_block.
      pose proof (channel_mapper_spec (chunk_size chans k) bs Hbs) as CM. destruct (channel_mapper (chunk_size chans k) bs) as [cmap' oc].
      destruct CM as (CM1' & CM2' & _). cbn [snd]. intros Hf. subst OC oc.
      pose proof (aligned_start bs chans A k Hk) as Hf0. pose proof (chunk_pos k Hk) as Hn.
      change (t_freq F K t') with (t_freq F K t). change (t_width F K t') with (t_width F K t).
      change (t_ebw F K t') with (t_ebw F K t). change (t_res F K t') with (t_res F K t).
      cbn [chan_average ca_freq ca_width ca_ebw ca_res].
      split; [|split; [|split]].
      + destruct (vals K (t_freq F K t)); cbn; [|exact I]. now apply chan_mean_block.
      + destruct (vals K (t_width F K t)); cbn; [|exact I]. apply (chan_sum_block K bs N); assumption.
      + destruct (vals K (t_ebw F K t)); cbn; [|exact I]. apply (chan_sum_block K bs N); assumption.
      + destruct (vals K (t_res F K t)); cbn; [|exact I]. apply (chan_sum_block K bs N); assumption.
    - intros Hcube k c Hk Hc. destruct (E2a Hcube) as [-> ->].
      unfold cells_block. fold nr. rewrite Efr. cbn [bind]. rewrite Erm. cbn [bind].
      set (shape := fun s : option (nat * nat) => option_map (fun _ => (chunk_size chans k, chunk_size corrs c)) s).
      destruct (chan_corrs_const (shape (t_vis_sh F K t)) (shape (t_flag_sh F K t)) (shape (t_ws_sh F K t)) (shape (t_ss_sh F K t))
                  None None None None (chunk_size chans k) (chunk_size corrs c)) as (x3 & y3 & E3 & E3a & _).
      { intros s Hs. assert (X : forall o, shape o = Some s -> s = (chunk_size chans k, chunk_size corrs c)).
        { intros [p|] Ho; [|discriminate]. cbn in Ho. congruence. }
        cbn [In] in Hs. destruct Hs as [Hs|[Hs|[Hs|[Hs|[]]]]]; exact (X _ Hs). }
      { cbn. intros n Hn. intuition discriminate. }
      rewrite E3. cbn [bind snd].
      assert (Ey3 : y3 = chunk_size corrs c).
      { apply E3a. destruct Hcube as [s Hs]. exists (chunk_size chans k, chunk_size corrs c).
        cbn [In] in Hs |- *. destruct Hs as [->|[->|[->|[->|[]]]]]; cbn; auto. }
      subst y3. unfold chan_meta_block.
      pose proof (channel_mapper_spec (chunk_size chans k) bs Hbs) as CM. destruct (channel_mapper (chunk_size chans k) bs) as [cmap' oc].
      destruct CM as (CM1' & CM2' & _). cbn [snd].
      exact (cells_of_block K bs nr N (chunk_start chans k) (chunk_size chans k) (chunk_start corrs c) (chunk_size corrs c) C r0
               (rm_out_rows F rm) OC oc (rm_map F rm) cmap cmap' fr (rm_flag_row F rm) (t_cells F K t) rc
               Hbs (aligned_start bs chans A k Hk) (chunk_pos k Hk) (chunk_end corrs c Hc) CM1 CM1' CM2 CM2' Erc).
  Qed.

  Theorem chunk_raises e : numpy_chunk F K ch t ai r = Raise e ->
    da_row_meta F K d r = Raise e \/
    e = ZeroFilledBin /\ exists k c, k < length chans /\ c < length corrs /\ da_cells F K d r k c = Raise ZeroFilledBin.
  Proof.
    intros E. destruct d_fields as (D1 & _ & _ & D4 & _). rewrite D1, D4.
    destruct (dask_ok_iff d Ed) as (HC & _ & Hbs).
    unfold numpy_chunk in E. fold r0 nr t' in E. rewrite tc_unfold in E.
    destruct nchan_numpy as [y Ey].
    change (chan_corrs (t_vis_sh F K t') (t_flag_sh F K t') (t_ws_sh F K t') (t_ss_sh F K t')
              (dims K (t_freq F K t')) (dims K (t_width F K t')) (dims K (t_ebw F K t')) (dims K (t_res F K t')))
      with (chan_corrs (t_vis_sh F K t) (t_flag_sh F K t) (t_ws_sh F K t) (t_ss_sh F K t)
              (dims K (t_freq F K t)) (dims K (t_width F K t)) (dims K (t_ebw F K t)) (dims K (t_res F K t))) in E.
    rewrite Ey in E. cbn [bind fst] in E.
    change (t_n F K t') with nr in E. rewrite <- merged in E.
    destruct (flag_row_block F K ch t r) as [fr|e1] eqn:Efr.
    2:{ left. cbn [bind] in E. unfold row_meta_block. rewrite Efr. cbn [bind]. congruence. }
    cbn [bind] in E. change nr with (t_n F K t') in E at 1.
    match type of E with bind ?m _ = _ => destruct m as [rm|e1] eqn:Erm end.
    2:{ left. cbn [bind] in E. injection E as <-. unfold row_meta_block. rewrite Efr. cbn [bind]. exact Erm. }
    right. cbn [bind] in E. apply (proj2 (rows_same fr rm Efr)) in Erm.
    change (t_vis_sh F K t') with (t_vis_sh F K t) in E. change (t_flag_sh F K t') with (t_flag_sh F K t) in E.
    change (t_ws_sh F K t') with (t_ws_sh F K t) in E. change (t_ss_sh F K t') with (t_ss_sh F K t) in E.
    change (t_bin_size F K t') with bs in E.
    destruct T as (_ & T1 & T2 & T3 & T4).
    destruct (chan_corrs_const (t_vis_sh F K t) (t_flag_sh F K t) (t_ws_sh F K t) (t_ss_sh F K t) None None None None N C T1) as (x2 & y2 & E2 & E2a & _).
    { cbn. intros n Hn. intuition discriminate. }
    rewrite E2 in E. cbn [bind snd] in E. cbv zeta in E.
    pose proof (channel_mapper_spec N bs Hbs) as CM. destruct (channel_mapper N bs) as [cmap OC]. destruct CM as (CM1 & CM2 & _). cbn [fst snd] in E.
    match type of E with bind ?m _ = _ => destruct m as [rc|e1] eqn:Erc; [discriminate|] end. cbn [bind] in E. injection E as <-.
    unfold row_chan_average in Erc. pose proof (normalise_exn K _ _ _ _ _ Erc) as ->. split; [reflexivity|].
    destruct (normalise_raise K _ _ _ _ _ Erc) as (o & f & co & Ho & Hf & Hco & Ecell).
    assert (Hcube : exists s, In (Some s) cubes).
    { cbn [In]. destruct (t_vis_sh F K t) as [s|]; [exists s; auto|]. destruct (t_flag_sh F K t) as [s|]; [exists s; auto|].
      destruct (t_ws_sh F K t) as [s|]; [exists s; auto|]. destruct (t_ss_sh F K t) as [s|]; [exists s; auto|].
      exfalso. cbn in E2. injection E2 as <- <-. lia. }
    destruct (E2a Hcube) as [-> ->].
    assert (Hfb : f * bs < N).
    { rewrite CM2 in Hf. pose proof (Nat.mul_div_le (N + bs - 1) bs ltac:(lia)). nia. }
    destruct (chunk_find chans (f * bs) Hfb) as (k & Hk & Hkb). destruct (chunk_find corrs co Hco) as (c & Hc & Hcb).
    exists k, c. split; [exact Hk|]. split; [exact Hc|].
    unfold cells_block. fold nr. rewrite Efr. cbn [bind]. rewrite Erm. cbn [bind].
    set (shape := fun s : option (nat * nat) => option_map (fun _ => (chunk_size chans k, chunk_size corrs c)) s).
    destruct (chan_corrs_const (shape (t_vis_sh F K t)) (shape (t_flag_sh F K t)) (shape (t_ws_sh F K t)) (shape (t_ss_sh F K t))
                None None None None (chunk_size chans k) (chunk_size corrs c)) as (x3 & y3 & E3 & E3a & _).
    { intros s Hs. assert (X : forall o, shape o = Some s -> s = (chunk_size chans k, chunk_size corrs c)).
      { intros [p|] Hop; [|discriminate]. cbn in Hop. congruence. }
      cbn [In] in Hs. destruct Hs as [Hs|[Hs|[Hs|[Hs|[]]]]]; exact (X _ Hs). }
    { cbn. intros n Hn. intuition discriminate. }
    rewrite E3. cbn [bind snd].
    assert (Ey3 : y3 = chunk_size corrs c).
    { apply E3a. destruct Hcube as [s Hs]. exists (chunk_size chans k, chunk_size corrs c).
      cbn [In] in Hs |- *. destruct Hs as [->|[->|[->|[->|[]]]]]; cbn; auto. }
    subst y3. unfold chan_meta_block.
    pose proof (channel_mapper_spec (chunk_size chans k) bs Hbs) as CM. destruct (channel_mapper (chunk_size chans k) bs) as [cmap' oc].
    destruct CM as (CM1' & CM2' & _).
    destruct (row_chan_average K _ _ _ _ _ _ _ _ _ _) as [blk|e] eqn:Eb;
      [exfalso|unfold row_chan_average in Eb; f_equal; exact (normalise_exn K _ _ _ _ _ Eb)].
    unfold row_chan_average in Eb. destruct (aligned_start bs chans A k Hk) as [m Em].
    assert (Ef : f = chunk_start chans k / bs + (f - m)).
    { rewrite Em in *. rewrite Nat.div_mul by lia. nia. }
    assert (Hf2 : f - m < oc).
    { rewrite CM2', Em in *. apply Nat.div_le_lower_bound; nia. }
    pose proof (normalise_ok K _ _ _ _ _ Eb o (f - m) (co - chunk_start corrs c) Ho Hf2 ltac:(lia)) as Hn.
    unfold chan_cols_block in Hn. rewrite (acc_block K bs (chunk_size rows r) N (chunk_start chans k) (chunk_size chans k) (chunk_start corrs c) (chunk_size corrs c) C
       (chunk_start rows r) (rm_map F rm) cmap cmap') in Hn;
      [|exact Hbs|exact (aligned_start bs chans A k Hk)|exact (chunk_pos k Hk)|exact (chunk_end corrs c Hc)|exact CM1|exact CM1'|rewrite <- CM2'; exact Hf2|lia].
    rewrite <- Ef in Hn. replace (chunk_start corrs c + (co - chunk_start corrs c)) with co in Hn by lia.
    assert (Z : Ok (blk o (f - m) (co - chunk_start corrs c)) = Raise ZeroFilledBin); [|discriminate].
    rewrite <- Hn, <- Ecell. reflexivity.
  Qed.
  End Chunk.
End Main.

(* ---------- numbers of channel bins ---------- *)
Lemma ceil_multiple bs m n : 0 < bs -> (m * bs + n + bs - 1) / bs = m + (n + bs - 1) / bs.
Proof. intros H. replace (m * bs + n + bs - 1) with (n + bs - 1 + m * bs) by lia. rewrite Nat.div_add by lia. lia. Qed.
Lemma ceil_multiple0 bs m : 0 < bs -> (m * bs + bs - 1) / bs = m.
Proof. intros H. pose proof (ceil_multiple bs m 0 H) as E. rewrite Nat.add_0_r in E. rewrite E, (Nat.div_small (0 + bs - 1)) by lia. lia. Qed.
Lemma bins_add bs l : 0 < bs -> aligned bs l -> list_sum (map (adjusted bs) l) = (list_sum l + bs - 1) / bs.
Proof.
  intros Hbs. induction l as [|c l IH]; intros A; [cbn; symmetry; apply Nat.div_small; lia|].
  cbn [map]. change (list_sum (adjusted bs c :: map (adjusted bs) l)) with (adjusted bs c + list_sum (map (adjusted bs) l)).
  change (list_sum (c :: l)) with (c + list_sum l).
  rewrite IH by (intros k Hk; exact (A (S k) ltac:(cbn; lia))). unfold adjusted.
  destruct l as [|c' l].
  - cbn [list_sum fold_right]. rewrite (Nat.div_small (list_sum [] + bs - 1)) by (cbn; lia). cbn. rewrite !Nat.add_0_r. reflexivity.
  - destruct (A 0 ltac:(cbn; lia)) as [m Em]. cbn in Em. subst c. rewrite ceil_multiple0, ceil_multiple by exact Hbs. reflexivity.
Qed.
Lemma bins_at_least bs l : 0 < bs -> (list_sum l + bs - 1) / bs <= list_sum (map (adjusted bs) l).
Proof.
  intros Hbs. induction l as [|c l IH]; [cbn; rewrite Nat.div_small; lia|].
  cbn [map]. change (list_sum (adjusted bs c :: map (adjusted bs) l)) with (adjusted bs c + list_sum (map (adjusted bs) l)).
  change (list_sum (c :: l)) with (c + list_sum l). unfold adjusted at 1.
  assert (X : (c + list_sum l + bs - 1) / bs <= (c + bs - 1) / bs + (list_sum l + bs - 1) / bs); [|lia].
  pose proof (Nat.div_mod (c + bs - 1) bs ltac:(lia)). pose proof (Nat.div_mod (list_sum l + bs - 1) bs ltac:(lia)).
  pose proof (Nat.mod_upper_bound (c + bs - 1) bs ltac:(lia)). pose proof (Nat.mod_upper_bound (list_sum l + bs - 1) bs ltac:(lia)).
  assert (Y : (c + list_sum l + bs - 1) / bs < S ((c + bs - 1) / bs + (list_sum l + bs - 1) / bs)); [|lia].
  apply Nat.div_lt_upper_bound; nia.
Qed.
Lemma adjusted_same bs c : 0 < bs -> adjusted bs c = c <-> bs = 1 \/ c <= 1.
Proof.
  intros H. unfold adjusted. split.
  - intros E. destruct (Nat.eq_dec bs 1); [now left|right].
    pose proof (Nat.mul_div_le (c + bs - 1) bs ltac:(lia)). rewrite E in *. nia.
  - intros [->|Hc]; [rewrite Nat.div_1_r; lia|]. destruct c as [|[|c]]; [apply Nat.div_small; lia| |lia].
    replace (1 + bs - 1) with bs by lia. apply Nat.div_same. lia.
Qed.
Lemma out_chans_adjusted F K ch t k : 0 < t_bin_size F K t -> snd (chan_meta_block F K ch t k) = adjusted (t_bin_size F K t) (chunk_size (ch_chans ch) k).
Proof.
  intros H. unfold chan_meta_block. pose proof (channel_mapper_spec (chunk_size (ch_chans ch) k) _ H) as CM.
  destruct (channel_mapper _ _) as [m nb]. destruct CM as (_ & -> & _). reflexivity.
Qed.
Lemma map_seq_nth (h : nat -> nat) l : map (fun k => h (nth k l 0)) (seq 0 (length l)) = map h l.
Proof.
  induction l as [|x l IH]; [reflexivity|]. cbn [length seq map]. f_equal.
  rewrite <- seq_shift, map_map. exact IH.
Qed.

Lemma declared F K ch t ai d : dask_time_and_channel F K ch t ai = Ok d ->
  (forall k, k < length (ch_chans ch) -> nth k (da_declared_cube_chans F K d) 0 = da_out_chans F K d k) /\
  (forall k, k < length (ch_chans ch) -> nth k (da_declared_vec_chans F K d) 0 = da_out_chans F K d k <-> t_bin_size F K t = 1 \/ nth k (ch_chans ch) 0 <= 1) /\
  (da_declared_row_corrs F K d = [da_row_corrs F K d] <-> list_sum (tl (ch_corrs ch)) = 0) /\
  (aligned (t_bin_size F K t) (ch_chans ch) ->
     list_sum (map (da_out_chans F K d) (seq 0 (length (ch_chans ch)))) = (list_sum (ch_chans ch) + t_bin_size F K t - 1) / t_bin_size F K t) /\
  (list_sum (ch_chans ch) + t_bin_size F K t - 1) / t_bin_size F K t <= list_sum (map (da_out_chans F K d) (seq 0 (length (ch_chans ch)))).
Proof.
  intros E. destruct (dask_ok_iff F K ch t ai d E) as (_ & _ & Hbs).
  unfold dask_time_and_channel in E. destruct (negb _) in E; [discriminate|]. destruct (negb _) in E; [discriminate|].
  destruct (Nat.eqb _ 0); [discriminate|]. injection E as <-.
  cbn [da_declared_cube_chans da_declared_vec_chans da_declared_row_corrs da_row_corrs da_out_chans].
  assert (Hs : map (fun k => snd (chan_meta_block F K ch t k)) (seq 0 (length (ch_chans ch))) = map (adjusted (t_bin_size F K t)) (ch_chans ch)).
  { rewrite <- (map_seq_nth (adjusted (t_bin_size F K t)) (ch_chans ch)). apply map_ext. intros k. now apply out_chans_adjusted. }
  split; [|split; [|split; [|split]]].
  - intros k Hk. rewrite out_chans_adjusted by exact Hbs. unfold chunk_size.
    rewrite (nth_indep _ 0 (adjusted (t_bin_size F K t) 0)) by (now rewrite map_length). apply map_nth.
  - intros k Hk. rewrite out_chans_adjusted by exact Hbs. unfold chunk_size.
    rewrite (nth_indep _ 0 (adjusted 1 0)) by (now rewrite map_length). rewrite map_nth.
    rewrite (proj2 (adjusted_same 1 (nth k (ch_chans ch) 0) ltac:(lia))) by (now left).
    rewrite <- adjusted_same by exact Hbs. split; congruence.
  - unfold chunk_size. destruct (ch_corrs ch) as [|c l]; [cbn; split; reflexivity|]. cbn [tl nth]. change (list_sum (c :: l)) with (c + list_sum l).
    split; [intros X; injection X; lia|intros ->; f_equal; lia].
  - intros A. rewrite Hs. now apply bins_add.
  - rewrite Hs. now apply bins_at_least.
Qed.

Lemma all_rows F K t : only_rows F K 0 (t_n F K t) t = t.
Proof.
  destruct t as [n ti it a1 a2 fr [tc ex uv we si] [rw vi fl ws ss] vs fs wss sss fq wd eb re sc bn]. unfold only_rows. cbn.
  destruct fr, tc, ex, uv, we as [[? ?]|], si as [[? ?]|]; cbn; destruct rw, vi, fl, ws, ss; reflexivity.
Qed.
Lemma one_row_chunk F K ch t ai : ch_rows ch = [t_n F K t] -> numpy_chunk F K ch t ai 0 = time_and_channel F K t ai.
Proof. intros E. unfold numpy_chunk. rewrite E. unfold chunk_start, chunk_size. cbn [firstn list_sum fold_right nth]. now rewrite all_rows. Qed.

Lemma declared_dims F K ch t ai d : dask_time_and_channel F K ch t ai = Ok d ->
  da_declared_rows F K d = repeat None (length (ch_rows ch)) /\
  length (da_declared_cube_chans F K d) = length (ch_chans ch) /\ length (da_declared_vec_chans F K d) = length (ch_chans ch).
Proof.
  unfold dask_time_and_channel. destruct (negb _); [discriminate|]. destruct (negb _); [discriminate|].
  destruct (Nat.eqb _ 0); [discriminate|]. intros E. injection E as <-. cbn [da_declared_rows da_declared_cube_chans da_declared_vec_chans].
  rewrite !map_length. split; [|now split]. induction (ch_rows ch) as [|x l IH]; [reflexivity|]. cbn. now rewrite IH.
Qed.
