(* The stream reduction under every schedule *)
From Coq Require Import Permutation.
From Verif Require Import Prelude PreludeFacts DaskPredictModel.
Open Scope nat_scope.

Lemma list_eqb_spec x y : list_eqb x y = true <-> x = y.
Proof. unfold list_eqb. destruct (list_eq_dec Nat.eq_dec x y); split; congruence. Qed.
Lemma key_eqb_spec a b : key_eqb a b = true <-> a = b.
Proof.
  destruct a as [x|x|n x], b as [y|y|m y]; cbn [key_eqb]; try (split; discriminate);
    try (rewrite list_eqb_spec; split; congruence).
  rewrite andb_true_iff, Nat.eqb_eq, list_eqb_spec. split; [intros [-> ->]; reflexivity|intros H; injection H; auto].
Qed.
Lemma key_eqb_refl k : key_eqb k k = true.
Proof. now apply key_eqb_spec. Qed.

Lemma find_task_In l k t : find_task l k = Some t -> In (k, t) l.
Proof.
  induction l as [|[k' t'] l IH]; [discriminate|]. cbn [find_task]. destruct (key_eqb k' k) eqn:E.
  - apply key_eqb_spec in E. intros H. injection H as ->. subst. now left.
  - intros H. right. auto.
Qed.
Lemma find_task_some l k t : In (k, t) l -> exists t', find_task l k = Some t'.
Proof.
  induction l as [|[k' t'] l IH]; [intros []|]. cbn [find_task]. destruct (key_eqb k' k) eqn:E; [eauto|].
  intros [H|H]; [|auto]. injection H as -> ->. rewrite key_eqb_refl in E. discriminate.
Qed.

Lemma mapM_Ok {A B} (f : A -> res B) l r : mapM f l = Ok r <-> Forall2 (fun x y => f x = Ok y) l r.
Proof.
  revert r. induction l as [|x l IH]; intros r; cbn [mapM].
  - split; [intros H; injection H as <-; constructor|inversion 1; reflexivity].
  - split.
    + destruct (f x) as [y|e] eqn:E; [|discriminate]. cbn [bind].
      destruct (mapM f l) as [ys|e]; [|discriminate]. cbn [bind]. intros H. injection H as <-.
      constructor; [exact E|]. now apply IH.
    + inversion 1; subst. rewrite H2. cbn [bind].
      apply IH in H4. rewrite H4. reflexivity.
Qed.
Lemma mapM_total {A B} (f : A -> res B) l : (forall x, In x l -> exists y, f x = Ok y) -> exists r, mapM f l = Ok r.
Proof.
  induction l as [|x l IH]; intros H; [exists []; reflexivity|]. cbn [mapM].
  destruct (H x (or_introl eq_refl)) as [y ->]. cbn [bind].
  destruct IH as [r ->]; [intros; apply H; now right|]. cbn [bind]. eauto.
Qed.
Lemma Forall2_In_r {A B} (P : A -> B -> Prop) l r y : Forall2 P l r -> In y r -> exists x, In x l /\ P x y.
Proof.
  induction 1; [intros []|]. intros [<-|H1]; [exists x; split; [now left|assumption]|].
  destruct (IHForall2 H1) as [x' [? ?]]. exists x'. split; [now right|assumption].
Qed.
Lemma Forall2_In_l {A B} (P : A -> B -> Prop) l r x : Forall2 P l r -> In x l -> exists y, In y r /\ P x y.
Proof.
  induction 1; [intros []|]. intros [<-|H1]; [exists y; split; [now left|assumption]|].
  destruct (IHForall2 H1) as [x' [? ?]]. exists x'. split; [now right|assumption].
Qed.

Lemma product_In ns l : In l (product ns) <-> Forall2 lt l ns.
Proof.
  revert l. induction ns as [|n ns IH]; intros l; cbn [product].
  - split; [intros [<-|[]]; constructor|inversion 1; now left].
  - rewrite in_flat_map. split.
    + intros [i [Hi H]]. apply in_map_iff in H. destruct H as [r [<- Hr]]. apply in_seq in Hi.
      constructor; [lia|]. now apply IH.
    + inversion 1; subst. exists x. split; [apply in_seq; lia|]. apply in_map_iff. exists l0.
      split; [reflexivity|]. now apply IH.
Qed.

Section Stream.
  Context {V : Type} (func : list (option V) -> V).
  Context (out_idx : list nat) (indices : list (option (nat * list nat)))
          (dim_blocks : nat -> option nat) (feed axis : nat) (inputs : @store V).
  Context (dsk : list (dkey * list darg)).
  Context (HD : lr_dict out_idx indices dim_blocks feed axis = Ok dsk).
  Context (Hin : forall k v, inputs k = Some v -> exists n b, k = KIn n b).
  Notation out_dims := (axis :: out_idx).
  Notation last := (nblocks dim_blocks axis - 1).

  Definition key_of (i : nat) (bs : list nat) : dkey := if Nat.eqb i last then KFinal bs else KInter (i :: bs).

  (* value of one argument of the task of block i :: bs *)
  Definition argval (feedv : option V) (i : nat) (bs : list nat) (p : nat * option (nat * list nat)) : option V :=
    if Nat.eqb (fst p) feed then feedv
    else match snd p with
         | None => None
         | Some (name, ind) =>
             match ind_map ind (i :: bs) out_dims dim_blocks with
             | Ok b => inputs (KIn name b) | Raise _ => None end
         end.
  Definition argvals (feedv : option V) (i : nat) (bs : list nat) : list (option V) :=
    map (argval feedv i bs) (combine (seq 0 (length indices)) indices).
  Fixpoint chain (i : nat) (bs : list nat) : V :=
    func (argvals (match i with O => None | S k => Some (chain k bs) end) i bs).

  Lemma dict_tasks k t : find_task dsk k = Some t ->
    exists i bs, Forall2 lt (i :: bs) (map (nblocks dim_blocks) out_dims) /\ k = key_of i bs /\
      lr_task out_dims indices dim_blocks feed (i :: bs) = Ok t.
  Proof.
    intros H. apply find_task_In in H. unfold lr_dict in HD.
    destruct (existsb (Nat.eqb axis) out_idx); [discriminate|]. apply mapM_Ok in HD.
    destruct (Forall2_In_r _ _ _ _ HD H) as [oi [Hi E]]. apply product_In in Hi.
    destruct oi as [|i bs]; [inversion Hi|]. exists i, bs. split; [exact Hi|].
    destruct (lr_task _ _ _ _ (i :: bs)) as [t'|e]; [|discriminate]. cbn [bind hd tl] in E. injection E as E1 E2.
    unfold key_of. split; [auto|]. now rewrite E2.
  Qed.

  Lemma dict_has i bs : Forall2 lt (i :: bs) (map (nblocks dim_blocks) out_dims) ->
    exists t, find_task dsk (key_of i bs) = Some t.
  Proof.
    intros H. apply product_In in H. pose proof HD as HD'. unfold lr_dict in HD'.
    destruct (existsb (Nat.eqb axis) out_idx); [discriminate|]. apply mapM_Ok in HD'.
    destruct (Forall2_In_l _ _ _ _ HD' H) as [[k t] [Hk E]].
    destruct (lr_task _ _ _ _ (i :: bs)) as [t'|e]; [|discriminate]. cbn [bind hd tl] in E. injection E as E1 E2.
    apply (find_task_some _ _ t). unfold key_of. now rewrite E1.
  Qed.

  Definition sinv (s : @store V) : Prop :=
    (forall n b, s (KIn n b) = inputs (KIn n b)) /\
    (forall i bs v, s (KInter (i :: bs)) = Some v -> v = chain i bs) /\
    (forall bs v, s (KFinal bs) = Some v -> v = chain last bs).

  Lemma args_of_cons (s : @store V) x l vs : args_of s (x :: l) = Some vs ->
    exists v vr, vs = v :: vr /\ args_of s l = Some vr /\
      match x with ANone => v = None | AKey k => v <> None /\ s k = v end.
  Proof.
    cbn [args_of]. destruct x as [|k].
    - destruct (args_of s l) as [vr|]; [|discriminate]. cbn. intros H. injection H as <-. eauto 10.
    - destruct (s k) as [v|] eqn:E; [|discriminate]. destruct (args_of s l) as [vr|]; [|discriminate].
      intros H. injection H as <-. exists (Some v), vr. repeat split; auto. discriminate.
  Qed.

  Lemma task_args s i bs t vs : sinv s -> lr_task out_dims indices dim_blocks feed (i :: bs) = Ok t ->
    args_of s t = Some vs -> vs = argvals (match i with O => None | S k => Some (chain k bs) end) i bs.
  Proof.
    intros [I1 [I2 _]] HT. unfold lr_task in HT. apply mapM_Ok in HT. unfold argvals.
    revert vs. set (l := combine _ _) in *. clearbody l. induction HT as [|[idx e] y l t H HT IH]; intros vs HA.
    - injection HA as <-. reflexivity.
    - apply args_of_cons in HA. destruct HA as [v [vr [-> [HA HV]]]]. cbn [map]. f_equal; [|auto].
      unfold argval. cbn [fst snd]. destruct (Nat.eqb idx feed).
      + destruct i as [|k]; injection H as <-; [exact HV|].
        destruct HV as [Hn HV]. destruct v as [v|]; [|congruence]. f_equal. now apply I2.
      + destruct e as [[name ind]|]; [|injection H as <-; exact HV].
        destruct (ind_map ind (i :: bs) out_dims dim_blocks) as [b|x]; [|discriminate].
        cbn [bind] in H. injection H as <-. destruct HV as [_ HV]. rewrite <- HV. now rewrite I1.
  Qed.

  Lemma sinv_exec s k : sinv s -> sinv (exec func dsk s k).
  Proof.
    intros I. unfold exec. destruct (find_task dsk k) as [t|] eqn:F; [|exact I].
    destruct (args_of s t) as [vs|] eqn:A; [|exact I].
    destruct (dict_tasks k t F) as [i [bs [Hb [-> HT]]]].
    rewrite (task_args s i bs t vs I HT A).
    assert (C : func (argvals (match i with O => None | S k => Some (chain k bs) end) i bs) = chain i bs) by (destruct i; reflexivity).
    rewrite C. destruct I as [I1 [I2 I3]]. unfold key_of. destruct (Nat.eqb_spec i last) as [E|Ne]; repeat split.
    - intros n b. cbn [key_eqb]. auto.
    - intros i' bs' v. cbn [key_eqb]. auto.
    - intros bs' v. destruct (key_eqb (KFinal bs) (KFinal bs')) eqn:Ek; [|auto].
      apply key_eqb_spec in Ek. injection Ek as <-. intros H. injection H as <-. now rewrite E.
    - intros n b. cbn [key_eqb]. auto.
    - intros i' bs' v. destruct (key_eqb (KInter (i :: bs)) (KInter (i' :: bs'))) eqn:Ek; [|auto].
      apply key_eqb_spec in Ek. injection Ek as <- <-. intros H. injection H as <-. reflexivity.
    - intros bs' v. cbn [key_eqb]. auto.
  Qed.

  Lemma sinv_inputs : sinv inputs.
  Proof.
    repeat split.
    - intros i bs v H. destruct (Hin _ _ H) as [n [b E]]. discriminate.
    - intros bs v H. destruct (Hin _ _ H) as [n [b E]]. discriminate.
  Qed.
  Lemma sinv_execute sched : sinv (execute func dsk inputs sched).
  Proof.
    unfold execute. assert (X : forall s, sinv s -> sinv (fold_left (exec func dsk) sched s)).
    { induction sched as [|k l IH]; intros s I; [exact I|]. simpl. apply IH. now apply sinv_exec. }
    apply X, sinv_inputs.
  Qed.

  Theorem stream_value sched bs v :
    execute func dsk inputs sched (KFinal bs) = Some v -> v = chain last bs.
  Proof. apply (sinv_execute sched). Qed.

  (* a schedule that completes block bs *)
  Context (Havail : forall i bs, Forall2 lt (i :: bs) (map (nblocks dim_blocks) out_dims) ->
     forall idx name ind, nth_error indices idx = Some (Some (name, ind)) -> idx <> feed ->
     exists b v, ind_map ind (i :: bs) out_dims dim_blocks = Ok b /\ inputs (KIn name b) = Some v).

  Lemma args_available s i bs t : sinv s -> Forall2 lt (i :: bs) (map (nblocks dim_blocks) out_dims) ->
    (match i with O => True | S k => s (KInter (k :: bs)) <> None end) ->
    lr_task out_dims indices dim_blocks feed (i :: bs) = Ok t -> exists vs, args_of s t = Some vs.
  Proof.
    intros [I1 _] Hb Hf HT. unfold lr_task in HT. apply mapM_Ok in HT.
    assert (Hl : forall idx e, In (idx, e) (combine (seq 0 (length indices)) indices) -> nth_error indices idx = Some e).
    { intros idx e H. apply In_nth_error in H. destruct H as [n H].
      assert (X : forall (l : list (option (nat * list nat))) st n, nth_error (combine (seq st (length l)) l) n = Some (idx, e) -> idx = st + n /\ nth_error l n = Some e).
      { induction l as [|y l IH]; intros st m Hm; [destruct m; discriminate|].
        destruct m as [|m]; cbn [length seq combine nth_error] in *.
        - injection Hm as <- <-. split; [lia|reflexivity].
        - destruct (IH _ _ Hm) as [E1 E2]. split; [lia|exact E2]. }
      destruct (X _ _ _ H) as [E1 E2]. now subst. }
    revert Hl. set (l := combine _ _) in *. clearbody l. intros Hl.
    induction HT as [|[idx e] y l t H HT IH]; [exists []; reflexivity|].
    destruct IH as [vr Hvr]; [intros; apply Hl; now right|].
    cbn [args_of]. destruct (Nat.eqb_spec idx feed) as [E|Ne].
    - destruct i as [|k]; injection H as <-; rewrite Hvr; [cbn; eauto|].
      destruct (s (KInter (k :: bs))) as [v|]; [eauto|congruence].
    - destruct e as [[name ind]|]; [|injection H as <-; rewrite Hvr; cbn; eauto].
      destruct (Havail i bs Hb idx name ind (Hl _ _ (or_introl eq_refl)) Ne) as [b [v [E1 E2]]].
      rewrite E1 in H. cbn [bind] in H. injection H as <-. rewrite I1, E2, Hvr. eauto.
  Qed.

  Theorem stream_completes bs : Forall2 lt bs (map (nblocks dim_blocks) out_idx) -> 0 < nblocks dim_blocks axis ->
    exists sched v, execute func dsk inputs sched (KFinal bs) = Some v.
  Proof.
    intros Hb Hn.
    assert (X : forall i, i <= last -> exists sched v, execute func dsk inputs sched (key_of i bs) = Some v).
    { induction i as [|k IH]; intros Hi.
      - exists [key_of 0 bs]. cbn [execute fold_left]. unfold exec.
        assert (F : Forall2 lt (0 :: bs) (map (nblocks dim_blocks) out_dims)) by (constructor; [lia|exact Hb]).
        destruct (dict_has 0 bs F) as [t Ht]. rewrite Ht.
        destruct (dict_tasks _ t Ht) as [i' [bs' [Hb' [Ek HT]]]].
        assert (i' = 0 /\ bs' = bs) as [-> ->].
        { unfold key_of in Ek. destruct (Nat.eqb_spec 0 last), (Nat.eqb_spec i' last); try discriminate; injection Ek; intros; subst; split; congruence || lia. }
        destruct (args_available inputs 0 bs t sinv_inputs F Logic.I HT) as [vs ->].
        exists (func vs). now rewrite key_eqb_refl.
      - destruct IH as [sched [v Hs]]; [lia|]. exists (sched ++ [key_of (S k) bs]).
        unfold execute. rewrite fold_left_app. fold (execute func dsk inputs sched).
        set (s := execute func dsk inputs sched) in *. cbn [fold_left]. unfold exec.
        assert (F : Forall2 lt (S k :: bs) (map (nblocks dim_blocks) out_dims)) by (constructor; [lia|exact Hb]).
        destruct (dict_has (S k) bs F) as [t Ht]. rewrite Ht.
        destruct (dict_tasks _ t Ht) as [i' [bs' [Hb' [Ek HT]]]].
        assert (i' = S k /\ bs' = bs) as [-> ->].
        { unfold key_of in Ek. destruct (Nat.eqb_spec (S k) last), (Nat.eqb_spec i' last); try discriminate; injection Ek; intros; subst; split; congruence || lia. }
        assert (Hk : s (KInter (k :: bs)) <> None).
        { unfold key_of in Hs. destruct (Nat.eqb_spec k last); [lia|]. congruence. }
        destruct (args_available s (S k) bs t (sinv_execute sched) F Hk HT) as [vs ->].
        exists (func vs). now rewrite key_eqb_refl. }
    destruct (X last (le_n _)) as [sched [v H]]. exists sched, v. unfold key_of in H. now rewrite Nat.eqb_refl in H.
  Qed.
End Stream.
