(* Channel averaging, extent inference, flag merging, conservation and the
   composition time_and_channel. *)
From Coq Require Import Sorting.Sorted Sorting.Permutation.
From Verif Require Import Prelude PreludeFacts AvgModel AvgModel2 AvgSpec AvgSpec2
     AvgProofs3 AvgProofs4 AvgProofs5.

(* ---------- sums in a commutative monoid ---------- *)
Section Monoid.
  Context {V : Type} (add : V -> V -> V) (zero : V) (M : comm_monoid add zero).
  Notation sum := (lsum add zero).

  Lemma lsum_acc {A} (f : A -> V) l a :
    fold_left (fun s x => add s (f x)) l a = add a (sum f l).
  Proof.
    unfold lsum. revert a. induction l as [|x l IH]; intros a; simpl.
    - now rewrite (cm_comm _ _ M), (cm_zero _ _ M).
    - rewrite IH, (IH (add zero (f x))), (cm_zero _ _ M). apply (cm_assoc _ _ M).
  Qed.
  Lemma lsum_cons {A} (f : A -> V) x l : sum f (x :: l) = add (f x) (sum f l).
  Proof. unfold lsum. simpl. rewrite lsum_acc. now rewrite (cm_zero _ _ M). Qed.
  Lemma lsum_nil {A} (f : A -> V) : sum f [] = zero.
  Proof. reflexivity. Qed.
  Lemma lsum_app {A} (f : A -> V) l1 l2 : sum f (l1 ++ l2) = add (sum f l1) (sum f l2).
  Proof.
    unfold lsum. rewrite fold_left_app, lsum_acc. reflexivity.
  Qed.
  Lemma lsum_ext {A} (f g : A -> V) l : (forall a, In a l -> f a = g a) -> sum f l = sum g l.
  Proof.
    intros H. induction l as [|x l IH]; [reflexivity|].
    rewrite !lsum_cons, IH, (H x); [reflexivity|now left|intros; apply H; now right].
  Qed.
  Lemma lsum_zero {A} (l : list A) : sum (fun _ => zero) l = zero.
  Proof. induction l as [|x l IH]; [reflexivity|]. rewrite lsum_cons, IH. apply (cm_zero _ _ M). Qed.
  Lemma lsum_add {A} (f g : A -> V) l : sum (fun a => add (f a) (g a)) l = add (sum f l) (sum g l).
  Proof.
    induction l as [|x l IH]; [symmetry; apply (cm_zero _ _ M)|].
    rewrite !lsum_cons, IH, !(cm_assoc _ _ M). f_equal. rewrite <- !(cm_assoc _ _ M).
    f_equal. apply (cm_comm _ _ M).
  Qed.
  Lemma lsum_perm {A} (f : A -> V) l1 l2 : Permutation l1 l2 -> sum f l1 = sum f l2.
  Proof.
    induction 1 as [|x l1 l2 P IH|x y l|l1 l2 l3 P1 IH1 P2 IH2]; [reflexivity| | |congruence].
    - now rewrite !lsum_cons, IH.
    - rewrite !lsum_cons, <- !(cm_assoc _ _ M). f_equal. apply (cm_comm _ _ M).
  Qed.
  Lemma lsum_map {A B} (h : A -> B) (f : B -> V) l : sum f (map h l) = sum (fun a => f (h a)) l.
  Proof. unfold lsum. clear M. revert zero. induction l; intros z; simpl; auto. Qed.

  (* sum over the fibres of a key *)
  Lemma lsum_fibres {A B} (eqb : B -> B -> bool) (Heq : forall x y, eqb x y = true <-> x = y)
        (key : A -> B) (f : A -> V) (l : list A) (keys : list B) :
    NoDup keys -> (forall a, In a l -> In (key a) keys) ->
    sum (fun k => sum f (filter (fun a => eqb (key a) k) l)) keys = sum f l.
  Proof.
    intros ND. induction l as [|x l IH]; intros H.
    - simpl. apply lsum_zero.
    - rewrite lsum_cons, <- IH by (intros; apply H; now right).
      assert (Hx : In (key x) keys) by (apply H; now left). clear IH H.
      rewrite (lsum_ext _ (fun k => add (if eqb (key x) k then f x else zero)
                                        (sum f (filter (fun a => eqb (key a) k) l))) keys).
      2:{ intros k _. simpl. destruct (eqb (key x) k); [apply lsum_cons|symmetry; apply (cm_zero _ _ M)]. }
      rewrite lsum_add. f_equal.
      induction keys as [|k ks IH]; [destruct Hx|].
      inversion ND as [|? ? Hn ND']; subst. rewrite lsum_cons.
      destruct (eqb (key x) k) eqn:E.
      + apply Heq in E. subst k.
        rewrite (lsum_ext _ (fun _ => zero) ks), lsum_zero.
        * now rewrite (cm_comm _ _ M), (cm_zero _ _ M).
        * intros k Hk. destruct (eqb (key x) k) eqn:E; [|reflexivity]. apply Heq in E. congruence.
      + rewrite (cm_zero _ _ M). apply IH; [exact ND'|]. destruct Hx as [->|Hx]; [|exact Hx].
        assert (eqb (key x) (key x) = true) by now apply Heq. congruence.
  Qed.
End Monoid.

(* ---------- chan_average ---------- *)
Section Chan.
  Context (K : farith).
  Notation rsum := (lsum (fadd K) (f0 K)).

  Lemma chan_sum_eq nchan cmap col b :
    chan_sum K nchan cmap col b = rsum col (filter (fun ch => Nat.eqb (cmap ch) b) (seq 0 nchan)).
  Proof.
    unfold chan_sum, inc, lsum.
    exact (scatter1 (fun _ => true) cmap (fun ch s => fadd K s (col ch)) nchan (fun _ => f0 K) b).
  Qed.
  Lemma chan_counts_eq nchan cmap b :
    chan_counts nchan cmap b = length (filter (fun ch => Nat.eqb (cmap ch) b) (seq 0 nchan)).
  Proof.
    unfold chan_counts.
    rewrite (scatter1 (fun _ => true) cmap (fun ch s => S s) nchan (fun _ => 0) b). simpl.
    assert (G : forall l a, fold_left (fun c (_ : nat) => S c) l a = length l + a).
    { induction l as [|x l IH]; intros a; simpl; [reflexivity|]. rewrite IH. lia. }
    rewrite G. lia.
  Qed.

  Lemma chan_average_spec nchan ochans cmap freq width ebw resn :
    let out := chan_average K nchan ochans cmap freq width ebw resn in
    (forall b, b < ochans -> exists l, ascending nchan (fun ch => cmap ch = b) l /\
       (forall col, freq = Some col ->
          exists o, ca_freq K out = Some o /\ o b = fdivn K (rsum col l) (length l)) /\
       (forall col, width = Some col -> exists o, ca_width K out = Some o /\ o b = rsum col l) /\
       (forall col, ebw = Some col -> exists o, ca_ebw K out = Some o /\ o b = rsum col l) /\
       (forall col, resn = Some col -> exists o, ca_res K out = Some o /\ o b = rsum col l)) /\
    (freq = None -> ca_freq K out = None) /\ (width = None -> ca_width K out = None) /\
    (ebw = None -> ca_ebw K out = None) /\ (resn = None -> ca_res K out = None).
  Proof.
    cbv zeta. unfold chan_average. cbn [ca_freq ca_width ca_ebw ca_res].
    split; [|repeat split; intros ->; reflexivity].
    intros b Hb. exists (filter (fun ch => Nat.eqb (cmap ch) b) (seq 0 nchan)).
    split; [apply ascending_filter; intros; apply Nat.eqb_eq|].
    split; [|repeat split; intros col ->; eexists; (split; [reflexivity|apply chan_sum_eq])].
    intros col ->. eexists. split; [reflexivity|]. unfold chan_freq_mean.
    rewrite <- chan_counts_eq, <- chan_sum_eq.
    generalize (chan_sum K nchan cmap col) as a0. intros a0.
    assert (G : forall m, for_ m (fun b a => upd a b (fdivn K (a b) (chan_counts nchan cmap b))) a0 b
              = if Nat.ltb b m then fdivn K (a0 b) (chan_counts nchan cmap b) else a0 b).
    { induction m as [|n IH]; [reflexivity|]. rewrite for_S.
      destruct (Nat.eq_dec b n) as [->|Hne].
      - rewrite upd_eq, IH. destruct (Nat.ltb_spec n n), (Nat.ltb_spec n (S n)); try lia. reflexivity.
      - rewrite upd_neq, IH by exact Hne.
        destruct (Nat.ltb_spec b n), (Nat.ltb_spec b (S n)); try lia; reflexivity. }
    rewrite G. destruct (Nat.ltb_spec b ochans); [reflexivity|lia].
  Qed.

  Lemma chan_sum_conserved nchan ochans cmap col :
    comm_monoid (fadd K) (f0 K) -> (forall ch, ch < nchan -> cmap ch < ochans) ->
    rsum (chan_sum K nchan cmap col) (seq 0 ochans) = rsum col (seq 0 nchan).
  Proof.
    intros M H.
    rewrite (lsum_ext _ _ M _ (fun b => rsum col (filter (fun ch => Nat.eqb (cmap ch) b) (seq 0 nchan))))
      by (intros; apply chan_sum_eq).
    apply (lsum_fibres _ _ M Nat.eqb Nat.eqb_eq); [apply seq_NoDup|].
    intros ch Hc. apply in_seq in Hc. apply in_seq. specialize (H ch ltac:(lia)). lia.
  Qed.

  (* ---------- conservation of weighted visibility ---------- *)
  Lemma StronglySorted_pair_NoDup l : StronglySorted pair_lt l -> NoDup l.
  Proof.
    induction 1 as [|a l S IH F]; constructor; auto.
    intros C. rewrite Forall_forall in F. specialize (F a C). unfold pair_lt in F. lia.
  Qed.

  Definition pair_eqb (p q : nat * nat) : bool := Nat.eqb (fst p) (fst q) && Nat.eqb (snd p) (snd q).
  Lemma pair_eqb_eq p q : pair_eqb p q = true <-> p = q.
  Proof.
    unfold pair_eqb. rewrite andb_true_iff, !Nat.eqb_eq. destruct p, q; simpl.
    split; [intros [-> ->]; reflexivity|intros E; injection E; auto].
  Qed.
  Lemma all_pairs_grid n m : all_pairs n m = grid (seq 0 n) (seq 0 m).
  Proof. unfold all_pairs, grid. induction (seq 0 n) as [|x l IH]; simpl; [reflexivity|]. now rewrite IH. Qed.
  Lemma NoDup_all_pairs n m : NoDup (all_pairs n m).
  Proof.
    rewrite all_pairs_grid. apply StronglySorted_pair_NoDup, grid_sorted; apply StronglySorted_seq.
  Qed.
  Lemma in_all_pairs n m i j : In (i, j) (all_pairs n m) <-> i < n /\ j < m.
  Proof. unfold all_pairs. rewrite in_prod_iff, !in_seq. lia. Qed.

  Lemma ascending2_perm_filter n nchan P l (p : nat * nat -> bool) :
    ascending2 n nchan P l -> (forall i ch, i < n -> ch < nchan -> (p (i, ch) = true <-> P i ch)) ->
    Permutation l (filter p (all_pairs n nchan)).
  Proof.
    intros [S H] Hp. apply NoDup_Permutation.
    - now apply StronglySorted_pair_NoDup.
    - apply NoDup_filter, NoDup_all_pairs.
    - intros [i ch]. rewrite filter_In, in_all_pairs, H. split.
      + intros [H1 [H2 H3]]. split; [auto|]. now apply Hp.
      + intros [[H1 H2] H3]. split; [auto|]. split; [auto|]. now apply Hp.
  Qed.

  Theorem weighted_vis_conserved n nchan ncorr orows ochans rmap cmap flag_row oflag x v ws out c :
    comm_monoid (cadd K) (c0 K) ->
    (forall z w, fnonzero K w = true -> cscale K (cdiv K z w) w = z) ->
    in_vis K x = Some v -> in_wspec K x = Some ws ->
    (forall i, i < n -> rmap i < orows) -> (forall ch, ch < nchan -> cmap ch < ochans) ->
    (forall i, i < n -> contributes flag_row oflag i (rmap i)) ->
    (forall i ch, i < n -> ch < nchan -> ~ sample_flagged K x i ch c) ->
    c < ncorr ->
    row_chan_average K n nchan ncorr orows ochans rmap cmap flag_row oflag x = Ok out ->
    (forall r f, r < orows -> f < ochans -> fnonzero K (oc_wspec K (out r f c)) = true) ->
    lsum (cadd K) (c0 K)
         (fun p => cscale K (oc_vis K (out (fst p) (snd p) c)) (oc_wspec K (out (fst p) (snd p) c)))
         (all_pairs orows ochans) =
    lsum (cadd K) (c0 K) (fun p => cscale K (v (fst p) (snd p) c) (ws (fst p) (snd p) c))
         (all_pairs n nchan).
  Proof.
    intros M Hdiv Ev Ew Hr Hf Hcontr Hflag Hc E Hnz.
    rewrite <- (lsum_fibres _ _ M pair_eqb pair_eqb_eq (fun p => (rmap (fst p), cmap (snd p)))
                  (fun p => cscale K (v (fst p) (snd p) c) (ws (fst p) (snd p) c))
                  (all_pairs n nchan) (all_pairs orows ochans)).
    2: apply NoDup_all_pairs.
    2:{ intros [i ch] Hin. apply in_all_pairs in Hin. apply in_all_pairs. cbn [fst snd].
        split; [apply Hr|apply Hf]; tauto. }
    apply (lsum_ext _ _ M). intros [r f] Hin. apply in_all_pairs in Hin. destruct Hin as [Hrr Hff].
    cbn [fst snd].
    destruct (row_chan_average_spec K _ _ _ _ _ _ _ _ _ _ _ E r f c Hrr Hff Hc)
      as [lu [lf [l [A1 [A2 [A3 [A4 [A5 [A6 _]]]]]]]]]. cbv zeta in *.
    assert (Hlf : lf = []).
    { destruct lf as [|[i ch] lf']; [reflexivity|]. exfalso.
      destruct (proj1 (proj2 A2 i ch) (or_introl eq_refl)) as [B1 [B2 [_ [_ [_ B3]]]]].
      apply (Hflag i ch B1 B2 B3). }
    assert (Hl : l = lu). { destruct A4 as [[_ [-> _]]|[_ [-> _]]]; [reflexivity|congruence]. }
    subst l. specialize (Hnz r f Hrr Hff).
    rewrite (A6 ws Ew) in *. specialize (A5 v Ev).
    assert (Ewt : forall p, sample_weight K x (fst p) (snd p) c = Some (ws (fst p) (snd p) c)).
    { intros p. unfold sample_weight. now rewrite Ew. }
    assert (Es : lsum (fadd K) (f0 K) (fun p => weight_or_1 K (sample_weight K x (fst p) (snd p) c)) lu
               = lsum (fadd K) (f0 K) (fun p => ws (fst p) (snd p) c) lu).
    { unfold lsum. generalize (f0 K) as z. clear -Ewt. induction lu as [|p l IH]; intros z; [reflexivity|].
      simpl. rewrite Ewt. simpl. apply IH. }
    rewrite Es, Hnz in A5. rewrite A5, Hdiv by exact Hnz.
    rewrite (lsum_ext _ _ M _ (fun p => cscale K (v (fst p) (snd p) c) (ws (fst p) (snd p) c))).
    2:{ intros p _. now rewrite Ewt. }
    apply (lsum_perm _ _ M).
    apply (ascending2_perm_filter n nchan _ lu _ A1).
    intros i ch Hi Hch. cbn [fst snd]. rewrite pair_eqb_eq. split.
    - intros Ep. injection Ep as E1 E2. split; [exact E1|]. split; [exact E2|].
      split; [rewrite <- E1; auto|]. now apply Hflag.
    - intros [-> [-> _]]. reflexivity.
  Qed.
End Chan.

(* ---------- chan_corrs ---------- *)
Definition fd_fold (l : list (option nat)) (s : res nat) : res nat :=
  fold_left (fun s o => do! s' <- s; find_dim s' o) l s.

Lemma fd_fold_present l s : fd_fold l s =
  fold_left (fun s d => do! s' <- s; find_dim s' (Some d)) (present l) s.
Proof.
  unfold fd_fold. revert s. induction l as [|[d|] l IH]; intros s; cbn [fold_left present flat_map app].
  - reflexivity.
  - apply IH.
  - rewrite IH. fold (present l). destruct s; reflexivity.
Qed.

Lemma fd_fold_spec (l : list nat) : forall cur,
  (forall d, fold_left (fun s d => do! s' <- s; find_dim s' (Some d)) l (Ok cur) = Ok d ->
     ~ extents_conflict (cur :: l) /\ common_extent (cur :: l) d) /\
  (forall e, fold_left (fun s d => do! s' <- s; find_dim s' (Some d)) l (Ok cur) = Raise e ->
     e = ValueError /\ extents_conflict (cur :: l)).
Proof.
  assert (R : forall l e, fold_left (fun s d => do! s' <- s; find_dim s' (Some d)) l (Raise e) = Raise e)
    by (induction l0; simpl; auto).
  induction l as [|x l IH]; intros cur.
  - cbn [fold_left]. split; [intros d E; injection E as <-|intros e E; discriminate].
    split.
    + intros [l1 [a [l2 [b [l3 [E _]]]]]]. apply (f_equal (@length nat)) in E.
      rewrite !app_length in E. simpl in E. rewrite app_length in E. simpl in E. lia.
    + split; [right; now left|]. intros e [->|[]]. now right.
  - cbn [fold_left bind find_dim].
    destruct (Nat.eqb_spec cur 0) as [->|Hc].
    + destruct (IH x) as [I1 I2]. split.
      * intros d E. destruct (I1 d E) as [J1 [J2 J3]]. split.
        -- intros [l1 [a [l2 [b [l3 [El [Ha Hab]]]]]]]. destruct l1 as [|y l1].
           ++ injection El as <- El. congruence.
           ++ injection El as <- El. apply J1. exists l1, a, l2, b, l3. auto.
        -- split; [destruct J2; [now left|right; now right]|].
           intros e [<-|He]; [now left|auto].
      * intros e E. destruct (I2 e E) as [J1 [l1 [a [l2 [b [l3 [El H]]]]]]]. split; [exact J1|].
        exists (0 :: l1), a, l2, b, l3. split; [simpl; congruence|exact H].
    + destruct (Nat.eqb_spec cur x) as [<-|Hx].
      * destruct (IH cur) as [I1 I2]. split.
        -- intros d E. destruct (I1 d E) as [J1 [J2 J3]]. split.
           ++ intros [l1 [a [l2 [b [l3 [El [Ha Hab]]]]]]]. apply J1.
              destruct l1 as [|y l1].
              ** injection El as <- El. destruct l2 as [|z l2].
                 --- injection El as <- _. congruence.
                 --- injection El as <- El. exists [], cur, l2, b, l3. simpl. rewrite El. auto.
              ** injection El as <- El. exists l1, a, l2, b, l3. auto.
           ++ split; [destruct J2; [now left|right; now right]|].
              intros e [<-|He]; [apply J3; now left|auto].
        -- intros e E. destruct (I2 e E) as [J1 [l1 [a [l2 [b [l3 [El H]]]]]]]. split; [exact J1|].
           exists (cur :: l1), a, l2, b, l3. split; [simpl; congruence|exact H].
      * rewrite R. split; [discriminate|]. intros e E. injection E as <-. split; [reflexivity|].
        exists [], cur, [], x, l. auto.
Qed.

Lemma conflict_cons0 l : extents_conflict (0 :: l) <-> extents_conflict l.
Proof.
  split.
  - intros [l1 [a [l2 [b [l3 [E [H1 H2]]]]]]]. destruct l1 as [|y l1].
    + injection E as <- E. congruence.
    + injection E as <- E. exists l1, a, l2, b, l3. auto.
  - intros [l1 [a [l2 [b [l3 [-> H]]]]]]. exists (0 :: l1), a, l2, b, l3. auto.
Qed.

Lemma fd0_spec (l : list nat) :
  (forall d, fold_left (fun s d => do! s' <- s; find_dim s' (Some d)) l (Ok 0) = Ok d ->
     ~ extents_conflict l /\ common_extent l d) /\
  (forall e, fold_left (fun s d => do! s' <- s; find_dim s' (Some d)) l (Ok 0) = Raise e ->
     e = ValueError /\ extents_conflict l).
Proof.
  destruct (fd_fold_spec l 0) as [A B]. split.
  - intros d E. destruct (A d E) as [A1 [A2 A3]]. rewrite conflict_cons0 in A1. split; [exact A1|].
    split.
    + destruct A2 as [A2|[A2|A2]]; auto.
    + intros e He. apply A3. now right.
  - intros e E. destruct (B e E) as [B1 B2]. rewrite conflict_cons0 in B2. auto.
Qed.

Definition fcc_fold (l : list (option nat * option nat)) (s : res (nat * nat)) :=
  fold_left (fun s sh => do! s' <- s; find_chan_corr s' sh) l s.

Lemma fcc_split l : forall a b,
  match fcc_fold l (Ok (a, b)), fd_fold (map fst l) (Ok a), fd_fold (map snd l) (Ok b) with
  | Ok (x, y), Ok x', Ok y' => x = x' /\ y = y'
  | Raise e, Raise e', _ => e = ValueError /\ e' = ValueError
  | Raise e, _, Raise e' => e = ValueError /\ e' = ValueError
  | _, _, _ => False
  end.
Proof.
  assert (R1 : forall l e, fcc_fold l (Raise e) = Raise e) by (induction l0; simpl; auto).
  assert (R2 : forall l e, fd_fold l (Raise e) = Raise e) by (induction l0; simpl; auto).
  assert (V : forall c o e, find_dim c o = Raise e -> e = ValueError).
  { intros c [d|] e; simpl; [|discriminate]. destruct (Nat.eqb c 0); [discriminate|].
    destruct (Nat.eqb c d); [discriminate|congruence]. }
  assert (V2 : forall l c e, fd_fold l (Ok c) = Raise e -> e = ValueError).
  { induction l0 as [|o l0 IH]; intros c e; [discriminate|]. unfold fd_fold. cbn [fold_left bind].
    destruct (find_dim c o) as [c'|e'] eqn:E.
    - apply IH.
    - intros H. fold (fd_fold l0 (Raise e')) in H. rewrite R2 in H. injection H as <-. eauto. }
  induction l as [|[o1 o2] l IH]; intros a b.
  - simpl. auto.
  - unfold fcc_fold, fd_fold. cbn [fold_left bind map fst snd].
    unfold find_chan_corr at 2. cbn [fst snd].
    destruct (find_dim a o1) as [a'|e1] eqn:E1; cbn [bind].
    + destruct (find_dim b o2) as [b'|e2] eqn:E2; cbn [bind].
      * apply IH.
      * pose proof (V _ _ _ E2) as ->.
        fold (fcc_fold l (Raise ValueError)). fold (fd_fold (map fst l) (Ok a')).
        fold (fd_fold (map snd l) (Raise ValueError)).
        rewrite R1, R2. destruct (fd_fold (map fst l) (Ok a')) as [x|e] eqn:E; [auto|].
        split; [reflexivity|]. eapply V2; eauto.
    + pose proof (V _ _ _ E1) as ->.
      fold (fcc_fold l (Raise ValueError)). fold (fd_fold (map fst l) (Raise ValueError)).
      rewrite R1, R2. auto.
Qed.

Definition chan_dims (vis flag wspec sspec : option (nat * nat)) (freq width ebw resn : option nat) :=
  present [option_map fst vis; option_map fst flag; option_map fst wspec; option_map fst sspec;
           freq; width; ebw; resn].
Definition corr_dims (vis flag wspec sspec : option (nat * nat)) :=
  present [option_map snd vis; option_map snd flag; option_map snd wspec; option_map snd sspec].

Lemma chan_corrs_spec vis flag wspec sspec freq width ebw resn :
  let cd := chan_dims vis flag wspec sspec freq width ebw resn in
  let rd := corr_dims vis flag wspec sspec in
  match chan_corrs vis flag wspec sspec freq width ebw resn with
  | Ok (chan, corr) => ~ extents_conflict cd /\ ~ extents_conflict rd /\
                       common_extent cd chan /\ common_extent rd corr
  | Raise e => e = ValueError /\ (extents_conflict cd \/ extents_conflict rd)
  end.
Proof.
  cbv zeta. unfold chan_corrs.
  pose proof (fcc_split [cube_shape vis; cube_shape flag; cube_shape wspec; cube_shape sspec;
             vec_shape freq; vec_shape width; vec_shape ebw; vec_shape resn] 0 0) as H.
  unfold fcc_fold in H.
  assert (P1 : present (map fst [cube_shape vis; cube_shape flag; cube_shape wspec; cube_shape sspec;
             vec_shape freq; vec_shape width; vec_shape ebw; vec_shape resn])
             = chan_dims vis flag wspec sspec freq width ebw resn).
  { destruct vis as [[? ?]|], flag as [[? ?]|], wspec as [[? ?]|], sspec as [[? ?]|]; reflexivity. }
  assert (P2 : present (map snd [cube_shape vis; cube_shape flag; cube_shape wspec; cube_shape sspec;
             vec_shape freq; vec_shape width; vec_shape ebw; vec_shape resn])
             = corr_dims vis flag wspec sspec).
  { destruct vis as [[? ?]|], flag as [[? ?]|], wspec as [[? ?]|], sspec as [[? ?]|]; reflexivity. }
  rewrite !fd_fold_present, P1, P2 in H.
  destruct (fd0_spec (chan_dims vis flag wspec sspec freq width ebw resn)) as [A1 A2].
  destruct (fd0_spec (corr_dims vis flag wspec sspec)) as [B1 B2].
  destruct (fold_left _ [_; _; _; _; _; _; _; _] (Ok (0, 0))) as [[x y]|e].
  - destruct (fold_left _ (chan_dims _ _ _ _ _ _ _ _) _) as [x'|]; [|destruct H].
    destruct (fold_left _ (corr_dims _ _ _ _) _) as [y'|]; [|destruct H].
    destruct H as [-> ->]. destruct (A1 _ eq_refl), (B1 _ eq_refl). auto.
  - destruct (fold_left _ (chan_dims _ _ _ _ _ _ _ _) _) as [x'|e'].
    + destruct (fold_left _ (corr_dims _ _ _ _) _) as [y'|e'']; [destruct H|].
      destruct H as [-> _]. destruct (B2 _ eq_refl). auto.
    + destruct H as [-> _]. destruct (A2 _ eq_refl). auto.
Qed.

(* ---------- merge_flags ---------- *)
Lemma all_corrs_iff flag r f todo : forall k,
  all_corrs flag r f k todo = true <-> forall c, k <= c -> c < k + todo -> flag r f c <> 0%Z.
Proof.
  induction todo as [|t IH]; intros k; simpl.
  - split; [intros; lia|reflexivity].
  - destruct (Z.eqb_spec (flag r f k) 0) as [E|E].
    + split; [discriminate|]. intros H. exfalso. apply (H k); lia.
    + rewrite IH. split; intros H c H1 H2.
      * destruct (Nat.eq_dec c k) as [->|]; [exact E|]. apply H; lia.
      * apply H; lia.
Qed.
Lemma all_chans_iff flag r ncorr todo : forall k,
  all_chans flag r ncorr k todo = true <->
  forall f c, k <= f -> f < k + todo -> c < ncorr -> flag r f c <> 0%Z.
Proof.
  induction todo as [|t IH]; intros k; simpl.
  - split; [intros; lia|reflexivity].
  - destruct (all_corrs flag r k 0 ncorr) eqn:E.
    + rewrite IH. rewrite all_corrs_iff in E. split; intros H f c H1 H2 H3.
      * destruct (Nat.eq_dec f k) as [->|]; [apply E; lia|]. apply H; lia.
      * apply H; lia.
    + split; [discriminate|]. intros H.
      assert (all_corrs flag r k 0 ncorr = true) by (apply all_corrs_iff; intros; apply H; lia). congruence.
Qed.
Lemma all_flagged_iff nchan ncorr flag r :
  all_flagged nchan ncorr flag r = true <-> row_all_flagged nchan ncorr flag r.
Proof.
  unfold all_flagged, row_all_flagged. rewrite all_chans_iff. split; intros H f c; intros; apply H; lia.
Qed.

Lemma forM_unit n (p : nat -> bool) e :
  (forM n (fun r (_ : unit) => if p r then Ok tt else Raise e) tt = Ok tt /\ (forall r, r < n -> p r = true)) \/
  (forM n (fun r (_ : unit) => if p r then Ok tt else Raise e) tt = Raise e /\ exists r, r < n /\ p r = false).
Proof.
  induction n as [|n IH]; [left; split; [reflexivity|intros; lia]|].
  cbn [forM]. destruct IH as [[-> H]|[-> [r [H1 H2]]]]; cbn [bind].
  - destruct (p n) eqn:E; [left|right].
    + split; [reflexivity|]. intros r Hr. destruct (Nat.eq_dec r n) as [->|]; [exact E|]. apply H. lia.
    + split; [reflexivity|]. exists n. auto.
  - right. split; [reflexivity|]. exists r. split; [lia|exact H2].
Qed.

Lemma merge_flags_spec nrow nchan ncorr flag_row flag :
  match flag_row, flag with
  | Some fr, Some fl =>
      (merge_flags nrow nchan ncorr flag_row flag = Ok (Some fr) /\
       forall r, r < nrow -> (fr r <> 0%Z <-> row_all_flagged nchan ncorr fl r)) \/
      (merge_flags nrow nchan ncorr flag_row flag = Raise ValueError /\
       exists r, r < nrow /\ ~ (fr r <> 0%Z <-> row_all_flagged nchan ncorr fl r))
  | Some fr, None => merge_flags nrow nchan ncorr flag_row flag = Ok (Some fr)
  | None, Some fl => exists fr, merge_flags nrow nchan ncorr flag_row flag = Ok (Some fr) /\
      forall r, r < nrow -> (fr r = 0%Z \/ fr r = 1%Z) /\ (fr r <> 0%Z <-> row_all_flagged nchan ncorr fl r)
  | None, None => merge_flags nrow nchan ncorr flag_row flag = Ok None
  end.
Proof.
  unfold merge_flags. destruct flag_row as [fr|], flag as [fl|]; try reflexivity.
  - assert (P : forall r, Bool.eqb (negb (Z.eqb (fr r) 0)) (all_flagged nchan ncorr fl r) = true <->
                (fr r <> 0%Z <-> row_all_flagged nchan ncorr fl r)).
    { intros r. rewrite <- all_flagged_iff.
      destruct (Z.eqb_spec (fr r) 0) as [E|E], (all_flagged nchan ncorr fl r); simpl; intuition congruence. }
    destruct (forM_unit nrow (fun r => Bool.eqb (negb (Z.eqb (fr r) 0)) (all_flagged nchan ncorr fl r)) ValueError)
      as [[-> H]|[-> [r [H1 H2]]]]; cbn [bind]; [left|right].
    + split; [reflexivity|]. intros r Hr. apply P. auto.
    + split; [reflexivity|]. exists r. split; [exact H1|]. rewrite <- P. congruence.
  - eexists. split; [reflexivity|].
    intros r Hr.
    assert (G : forall m, r < m -> for_ m (fun r a => upd a r (if all_flagged nchan ncorr fl r then 1%Z else 0%Z))
                 (fun _ => 0%Z) r = if all_flagged nchan ncorr fl r then 1%Z else 0%Z).
    { induction m as [|m IH]; intros Hm; [lia|]. rewrite for_S.
      destruct (Nat.eq_dec r m) as [->|]; [apply upd_eq|]. rewrite upd_neq by assumption. apply IH. lia. }
    rewrite (G nrow Hr), <- all_flagged_iff.
    destruct (all_flagged nchan ncorr fl r); split; auto; intuition congruence.
Qed.
