(* Interleavings: SingletonMixin.instance and memoize_on_key; small decision tables *)
From Coq Require Import String.
From Verif Require Import Prelude PreludeFacts UtilModel UtilSpec.
Open Scope nat_scope.

Section Singleton.
  Context (parent : nat -> option nat) (truthy : nat -> bool) (cls_of : nat -> nat).
  Context (HT : forall o, truthy o = true) (HU : unrelated parent cls_of).
  Notation step := (s_step parent truthy cls_of).
  Notation run := (s_run parent truthy cls_of).

  Definition holding (p : s_pc) : bool :=
    match p with SCheck2 | SConstruct | SRelease => true | _ => false end.

  Record sinv (s : s_state) : Prop := {
    si_lock : forall t, s_lock s = Some t <-> holding (s_pcs s t) = true;
    si_attr : forall c o, s_attr s c = Some o -> nth_error (rev (s_made s)) o = Some c;
    si_made : forall c, In c (s_made s) <-> s_attr s c <> None;
    si_called : forall c, In c (s_made s) -> exists t, cls_of t = c;
    si_nodup : NoDup (s_made s);
    si_cons : forall t, s_pcs s t = SConstruct -> s_attr s (cls_of t) = None;
    si_set : forall t, s_pcs s t = SRelease \/ s_pcs s t = SRead -> s_attr s (cls_of t) <> None;
    si_done : forall t o, s_pcs s t = SDone o -> o = s_attr s (cls_of t) /\ o <> None
  }.

  Lemma lookup_none attr fuel : forall c, (forall a, ancestor parent a c -> attr a = None) ->
    lookup parent fuel attr c = None.
  Proof.
    induction fuel as [|f IH]; intros c H; simpl; rewrite (H c (anc_self _ _)).
    - reflexivity.
    - destruct (parent c) as [p|] eqn:E; [|reflexivity]. apply IH.
      intros a A. apply H. eapply anc_step; eauto.
  Qed.

  Lemma own_attr s t : sinv s -> cls_attr parent s (cls_of t) = s_attr s (cls_of t).
  Proof.
    intros I. unfold cls_attr. generalize (cls_of t) at 1 as fuel. intros fuel.
    destruct (s_attr s (cls_of t)) as [o|] eqn:E.
    - destruct fuel; simpl; now rewrite E.
    - apply lookup_none. intros a A. destruct (s_attr s a) as [o|] eqn:Ea; [|reflexivity]. exfalso.
      assert (Hin : In a (s_made s)) by (apply (si_made s I); congruence).
      destruct (si_called s I a Hin) as [t' <-]. rewrite (HU t t' A) in Ea. congruence.
  Qed.

  Lemma own_is_set s t : sinv s ->
    is_set parent truthy s (cls_of t) = match s_attr s (cls_of t) with Some _ => true | None => false end.
  Proof.
    intros I. unfold is_set. rewrite own_attr by exact I.
    destruct (s_attr s (cls_of t)); auto.
  Qed.

  (* a step of t that only changes its pc *)
  Lemma sinv_pc s t p : sinv s ->
    holding p = holding (s_pcs s t) ->
    (p = SConstruct -> s_attr s (cls_of t) = None) ->
    (p = SRelease \/ p = SRead -> s_attr s (cls_of t) <> None) ->
    (forall o, p = SDone o -> o = s_attr s (cls_of t) /\ o <> None) ->
    sinv (set_pc s t p).
  Proof.
    intros I H1 H2 H3 H4. constructor; cbn [set_pc s_lock s_attr s_made s_pcs]; try apply I.
    - intros t'. unfold upd. destruct (Nat.eqb_spec t' t) as [->|]; [rewrite H1|]; apply (si_lock s I).
    - intros t'. unfold upd. destruct (Nat.eqb_spec t' t) as [->|]; [auto|apply (si_cons s I)].
    - intros t'. unfold upd. destruct (Nat.eqb_spec t' t) as [->|]; [auto|apply (si_set s I)].
    - intros t' o. unfold upd. destruct (Nat.eqb_spec t' t) as [->|]; [auto|apply (si_done s I)].
  Qed.

  Lemma holding_unique s t t' : sinv s -> holding (s_pcs s t) = true -> holding (s_pcs s t') = true -> t = t'.
  Proof. intros I H1 H2. apply (si_lock s I) in H1, H2. congruence. Qed.

  Lemma sinv_step s t s' : sinv s -> step s t = Some s' -> sinv s'.
  Proof.
    intros I E. unfold s_step in E. destruct (s_pcs s t) eqn:Ep.
    - injection E as <-. apply sinv_pc; auto; rewrite ?Ep; try discriminate; intuition discriminate.
    - rewrite own_is_set in E by exact I. injection E as <-.
      destruct (s_attr s (cls_of t)) eqn:Ea; apply sinv_pc; auto; rewrite ?Ep; try discriminate; intuition congruence.
    - destruct (s_lock s) as [h|] eqn:El; [discriminate|]. injection E as <-.
      assert (NH : forall t', holding (s_pcs s t') = false).
      { intros t'. destruct (holding (s_pcs s t')) eqn:Eh; [|reflexivity]. apply (si_lock s I) in Eh. congruence. }
      constructor; cbn [set_pc set_lock s_lock s_attr s_made s_pcs]; try apply I.
      + intros t'. unfold upd. destruct (Nat.eqb_spec t' t) as [->|Ne]; [simpl; tauto|].
        rewrite NH. split; intros; congruence.
      + intros t'. unfold upd. destruct (Nat.eqb_spec t' t) as [->|]; [discriminate|apply (si_cons s I)].
      + intros t'. unfold upd. destruct (Nat.eqb_spec t' t) as [->|]; [intuition discriminate|apply (si_set s I)].
      + intros t' o. unfold upd. destruct (Nat.eqb_spec t' t) as [->|]; [discriminate|apply (si_done s I)].
    - rewrite own_is_set in E by exact I. injection E as <-.
      destruct (s_attr s (cls_of t)) eqn:Ea; apply sinv_pc; auto; rewrite ?Ep; try discriminate; intuition congruence.
    - injection E as <-. pose proof (si_cons s I t Ep) as Na.
      assert (Hh : holding (s_pcs s t) = true) by (now rewrite Ep).
      constructor; cbn [set_pc s_lock s_attr s_made s_pcs].
      + intros t'. unfold upd. destruct (Nat.eqb_spec t' t) as [->|]; [|apply (si_lock s I)].
        rewrite (si_lock s I), Ep. simpl. tauto.
      + intros c o. unfold upd. destruct (Nat.eqb_spec c (cls_of t)) as [->|Ne].
        * intros H. injection H as <-. simpl. rewrite nth_error_app2 by (rewrite rev_length; lia).
          rewrite rev_length, Nat.sub_diag. reflexivity.
        * intros H. apply (si_attr s I) in H. simpl.
          rewrite nth_error_app1; [exact H|]. apply nth_error_Some. congruence.
      + intros c. unfold upd. destruct (Nat.eqb_spec c (cls_of t)) as [->|Ne].
        * split; [discriminate|]. intros _. now left.
        * rewrite <- (si_made s I). split; [intros [H|H]; [congruence|exact H]|now right].
      + intros c [<-|H]; [eauto|now apply (si_called s I)].
      + constructor; [|apply I]. intros C. apply (si_made s I) in C. contradiction.
      + intros t' H. unfold upd in H. destruct (Nat.eqb_spec t' t) as [E0|Ne]; [discriminate|].
        exfalso. apply Ne. apply (holding_unique s); auto. now rewrite H.
      + intros t' H. unfold upd in *. destruct (Nat.eqb_spec (cls_of t') (cls_of t)) as [E2|Ne2]; [discriminate|].
        destruct (Nat.eqb_spec t' t) as [E0|Ne]; [subst; congruence|]. now apply (si_set s I).
      + intros t' o H. unfold upd in *. destruct (Nat.eqb_spec t' t) as [E0|Ne]; [discriminate|].
        destruct (si_done s I t' o H) as [D1 D2].
        destruct (Nat.eqb_spec (cls_of t') (cls_of t)) as [E2|Ne2]; [congruence|]. auto.
    - injection E as <-.
      assert (Hh : holding (s_pcs s t) = true) by (now rewrite Ep).
      constructor; cbn [set_pc set_lock s_lock s_attr s_made s_pcs]; try apply I.
      + intros t'. unfold upd. destruct (Nat.eqb_spec t' t) as [->|Ne]; [simpl; split; discriminate|].
        split; [discriminate|]. intros H. exfalso. apply Ne. now apply (holding_unique s).
      + intros t'. unfold upd. destruct (Nat.eqb_spec t' t) as [->|]; [discriminate|apply (si_cons s I)].
      + intros t'. unfold upd. destruct (Nat.eqb_spec t' t) as [->|]; [|apply (si_set s I)].
        intros _. apply (si_set s I). auto.
      + intros t' o. unfold upd. destruct (Nat.eqb_spec t' t) as [->|]; [discriminate|apply (si_done s I)].
    - injection E as <-. rewrite own_attr by exact I. apply sinv_pc; auto; rewrite ?Ep; try discriminate; try (intuition discriminate).
      intros o H. injection H as <-. split; [reflexivity|]. apply (si_set s I). auto.
    - discriminate.
  Qed.

  Lemma sinv_init : sinv s_init.
  Proof.
    constructor; simpl; intros; try discriminate; try tauto; try (split; [tauto|congruence]).
    - split; discriminate.
    - constructor.
    - intuition discriminate.
  Qed.

  Lemma sinv_run sched : sinv (run sched).
  Proof.
    unfold s_run. assert (X : forall s, sinv s -> sinv (fold_left (fun s t => match step s t with Some s' => s' | None => s end) sched s)).
    { induction sched as [|t l IH]; intros s I; [exact I|]. simpl. apply IH.
      destruct (step s t) eqn:E; [eapply sinv_step; eauto|exact I]. }
    apply X, sinv_init.
  Qed.

  Theorem singleton_spec sched :
    let s := run sched in
    NoDup (s_made s) /\
    (forall t o, s_pcs s t = SDone o -> exists k, o = Some k /\ nth_error (rev (s_made s)) k = Some (cls_of t)) /\
    (forall t t' o o', s_pcs s t = SDone o -> s_pcs s t' = SDone o' -> cls_of t = cls_of t' -> o = o') /\
    (forall t, step s t = None -> (exists o, s_pcs s t = SDone o) \/
       exists t', t' <> t /\ s_lock s = Some t' /\ step s t' <> None).
  Proof.
    cbv zeta. pose proof (sinv_run sched) as I. set (s := run sched) in *. split; [apply I|].
    split; [|split].
    - intros t o H. destruct (si_done s I t o H) as [E N]. destruct o as [k|]; [|congruence].
      exists k. split; [reflexivity|]. apply (si_attr s I). congruence.
    - intros t t' o o' H H' E. destruct (si_done s I t o H) as [-> _].
      destruct (si_done s I t' o' H') as [-> _]. now rewrite E.
    - intros t H. unfold s_step in H. destruct (s_pcs s t) eqn:Ep; try discriminate; [|eauto].
      destruct (s_lock s) as [t'|] eqn:El; [|discriminate]. right. exists t'.
      assert (Hh : holding (s_pcs s t') = true) by (now apply (si_lock s I)).
      split; [intros ->; rewrite Ep in Hh; discriminate|]. split; [reflexivity|].
      unfold s_step. destruct (s_pcs s t'); discriminate.
  Qed.
End Singleton.

(* ---------- memoize_on_key ---------- *)
Section Memo.
  Context {V : Type}.
  Notation state := (@m_state V).

  Definition m_holding (p : @m_pc V) : bool :=
    match p with MLookup _ | MCompute _ | MRelease _ _ => true | _ => false end.

  Record minv (s : state) : Prop := {
    mi_lock : forall t, m_lock s = Some t <-> m_holding (m_pcs s t) = true;
    mi_cache : forall k v, m_cache s k = Some v <-> ran_ok k v (m_log s);
    mi_hist : justified (m_log s);
    mi_pc : forall t, match m_pcs s t with
                      | MIdle => match last_of t (m_log s) with
                                 | None | Some (EvRet _ _ _) => True | _ => False end
                      | MWait k | MLookup k => last_of t (m_log s) = Some (EvCall t k)
                      | MCompute k => last_of t (m_log s) = Some (EvCall t k) /\ m_cache s k = None
                      | MRelease k r =>
                          last_of t (m_log s) = Some (EvRun t k r) \/
                          (last_of t (m_log s) = Some (EvCall t k) /\ exists v, r = Ok v /\ ran_ok k v (m_log s))
                      end
  }.

  Lemma last_of_cons t (e : @m_event V) l : last_of t (e :: l) = if Nat.eqb (ev_thread e) t then Some e else last_of t l.
  Proof. reflexivity. Qed.
  Lemma ran_ok_cons k (v : V) e l : ran_ok k v l -> ran_ok k v (e :: l).
  Proof. intros [t H]. exists t. now right. Qed.
  Lemma ran_ok_cons_inv k (v : V) e l : ran_ok k v (e :: l) -> (exists t, e = EvRun t k (Ok v)) \/ ran_ok k v l.
  Proof. intros [t [H|H]]; [left; eauto|right; exists t; auto]. Qed.

  Lemma m_holding_unique s t t' : minv s -> m_holding (m_pcs s t) = true -> m_holding (m_pcs s t') = true -> t = t'.
  Proof. intros I H1 H2. apply (mi_lock s I) in H1, H2. congruence. Qed.

  (* pc facts of another thread survive an event of t (a successful run needs care
     only for threads in MCompute, which hold the lock) *)
  Lemma minv_step s a : minv s -> minv (m_step s a).
  Proof.
    intros I. unfold m_step. set (t := act_thread a). destruct (m_pcs s t) as [|k|k|k|k r] eqn:Ep.
    - (* call *)
      constructor; cbn [m_cache m_lock m_pcs m_log].
      + intros t'. unfold upd. destruct (Nat.eqb_spec t' t) as [->|]; [|apply (mi_lock s I)].
        rewrite (mi_lock s I), Ep. simpl. tauto.
      + intros k v. rewrite (mi_cache s I). split; [apply ran_ok_cons|].
        intros H. apply ran_ok_cons_inv in H. destruct H as [[t' H]|H]; [discriminate|exact H].
      + cbn [justified]. pose proof (mi_pc s I t) as P. rewrite Ep in P. split; [exact P|apply I].
      + intros t'. rewrite last_of_cons. cbn [ev_thread]. unfold upd.
        rewrite (Nat.eqb_sym t t'). destruct (Nat.eqb_spec t' t) as [->|Ne]; [reflexivity|].
        pose proof (mi_pc s I t') as P. destruct (m_pcs s t'); auto.
        destruct P as [P|[P [v [P1 P2]]]]; [auto|]. right. split; [exact P|]. exists v. split; [exact P1|now apply ran_ok_cons].
    - (* acquire *)
      destruct (m_lock s) as [h|] eqn:El; [exact I|].
      assert (NH : forall t', m_holding (m_pcs s t') = false).
      { intros t'. destruct (m_holding (m_pcs s t')) eqn:Eh; [|reflexivity]. apply (mi_lock s I) in Eh. congruence. }
      constructor; cbn [m_cache m_lock m_pcs m_log]; try apply I.
      + intros t'. unfold upd. destruct (Nat.eqb_spec t' t) as [->|Ne]; [simpl; tauto|].
        rewrite NH. split; intros; congruence.
      + intros t'. unfold upd. destruct (Nat.eqb_spec t' t) as [->|Ne]; [|apply (mi_pc s I)].
        pose proof (mi_pc s I t) as P. rewrite Ep in P. exact P.
    - (* lookup *)
      pose proof (mi_pc s I t) as P. rewrite Ep in P.
      constructor; cbn [m_cache m_lock m_pcs m_log]; try apply I.
      + intros t'. unfold upd. destruct (Nat.eqb_spec t' t) as [->|Ne]; [|apply (mi_lock s I)].
        rewrite (mi_lock s I), Ep. simpl. destruct (m_cache s k); simpl; tauto.
      + intros t'. unfold upd. destruct (Nat.eqb_spec t' t) as [->|Ne]; [|apply (mi_pc s I)].
        destruct (m_cache s k) as [v|] eqn:Ec; [|auto]. right. split; [exact P|]. exists v.
        split; [reflexivity|]. now apply (mi_cache s I).
    - (* fn finishes *)
      pose proof (mi_pc s I t) as P. rewrite Ep in P. destruct P as [P Pc].
      assert (Nr : forall v, ~ ran_ok k v (m_log s)).
      { intros v H. apply (mi_cache s I) in H. congruence. }
      constructor; cbn [m_cache m_lock m_pcs m_log].
      + intros t'. unfold upd. destruct (Nat.eqb_spec t' t) as [->|Ne]; [|apply (mi_lock s I)].
        rewrite (mi_lock s I), Ep. simpl. tauto.
      + intros k' v. destruct (act_out a) as [w|e].
        * unfold upd. destruct (Nat.eqb_spec k' k) as [->|Ne].
          -- split.
             ++ intros H. injection H as ->. exists t. now left.
             ++ intros H. apply ran_ok_cons_inv in H. destruct H as [[t' H]|H]; [congruence|].
                exfalso. exact (Nr v H).
          -- rewrite (mi_cache s I). split; [apply ran_ok_cons|].
             intros H. apply ran_ok_cons_inv in H. destruct H as [[t' H]|H]; [congruence|exact H].
        * rewrite (mi_cache s I). split; [apply ran_ok_cons|].
          intros H. apply ran_ok_cons_inv in H. destruct H as [[t' H]|H]; [congruence|exact H].
      + cbn [justified]. split; [auto|apply I].
      + intros t'. rewrite last_of_cons. cbn [ev_thread]. unfold upd at 1.
        rewrite (Nat.eqb_sym t t'). destruct (Nat.eqb_spec t' t) as [->|Ne]; [now left|].
        pose proof (mi_pc s I t') as Q. destruct (m_pcs s t') eqn:Ep'; auto.
        * exfalso. apply Ne. apply (m_holding_unique s); auto; [now rewrite Ep'|now rewrite Ep].
        * destruct Q as [Q|[Q [v [Q1 Q2]]]]; [auto|]. right. split; [exact Q|]. exists v. split; [exact Q1|now apply ran_ok_cons].
    - (* release *)
      pose proof (mi_pc s I t) as P. rewrite Ep in P.
      constructor; cbn [m_cache m_lock m_pcs m_log].
      + intros t'. unfold upd. destruct (Nat.eqb_spec t' t) as [->|Ne]; [simpl; split; discriminate|].
        split; [discriminate|]. intros H. exfalso. apply Ne. apply (m_holding_unique s); auto. now rewrite Ep.
      + intros k' v. rewrite (mi_cache s I). split; [apply ran_ok_cons|].
        intros H. apply ran_ok_cons_inv in H. destruct H as [[t' H]|H]; [discriminate|exact H].
      + cbn [justified]. split; [exact P|apply I].
      + intros t'. rewrite last_of_cons. cbn [ev_thread]. unfold upd.
        rewrite (Nat.eqb_sym t t'). destruct (Nat.eqb_spec t' t) as [->|Ne]; [exact Logic.I|].
        pose proof (mi_pc s I t') as Q. destruct (m_pcs s t') eqn:Ep'; auto.
        destruct Q as [Q|[Q [v [Q1 Q2]]]]; [auto|]. right. split; [exact Q|]. exists v. split; [exact Q1|now apply ran_ok_cons].
  Qed.

  Lemma minv_init : minv m_init.
  Proof.
    constructor; simpl; auto.
    - intros t. split; discriminate.
    - intros k v. split; [discriminate|]. intros [t []].
  Qed.

  Lemma minv_run acts : minv (m_run acts).
  Proof.
    unfold m_run. assert (X : forall s, minv s -> minv (fold_left m_step acts s)).
    { induction acts as [|a l IH]; intros s I; [exact I|]. simpl. apply IH. now apply minv_step. }
    apply X, minv_init.
  Qed.

  Lemma justified_app (l1 l2 : list (@m_event V)) : justified (l1 ++ l2) -> justified l2.
  Proof. induction l1 as [|e l IH]; [auto|]. simpl. tauto. Qed.

  Theorem memo_spec acts :
    let s := @m_run V acts in
    (forall l2 l1 t k r, m_log s = l2 ++ EvRet t k r :: l1 ->
        last_of t l1 = Some (EvRun t k r) \/
        (last_of t l1 = Some (EvCall t k) /\ exists v, r = Ok v /\ ran_ok k v l1)) /\
    (forall l2 l1 t k r, m_log s = l2 ++ EvRun t k r :: l1 ->
        last_of t l1 = Some (EvCall t k) /\ forall v, ~ ran_ok k v l1) /\
    (forall t t' k v v', In (EvRet t k (Ok v)) (m_log s) -> In (EvRet t' k (Ok v')) (m_log s) -> v = v') /\
    (forall a, m_step s a = s -> exists k t', m_pcs s (act_thread a) = MWait k /\
        m_lock s = Some t' /\ t' <> act_thread a /\ forall k o,
        m_step s {| act_thread := t'; act_key := k; act_out := o |} <> s).
  Proof.
    cbv zeta. pose proof (minv_run acts) as I. set (s := m_run acts) in *. clearbody s.
    pose proof (mi_hist s I) as J. split; [|split; [|split]].
    - intros l2 l1 t k r E. rewrite E in J. apply justified_app in J. apply J.
    - intros l2 l1 t k r E. rewrite E in J. apply justified_app in J. apply J.
    - assert (X : forall t k v, In (EvRet t k (Ok v)) (m_log s) -> ran_ok k v (m_log s)).
      { intros t k v H. apply in_split in H. destruct H as [l2 [l1 E]]. rewrite E in J |- *.
        apply justified_app in J. destruct J as [[J|[_ [v' [J1 J2]]]] _].
        - apply find_some in J. exists t. apply in_or_app. right. right. tauto.
        - injection J1 as ->. destruct J2 as [t' J2]. exists t'. apply in_or_app. right. now right. }
      intros t t' k v v' H H'. apply X, (mi_cache s I) in H. apply X, (mi_cache s I) in H'. congruence.
    - assert (U : forall (f : nat -> @m_pc V) t p, f t <> p -> upd f t p <> f).
      { intros f t p N E. apply (f_equal (fun g => g t)) in E. rewrite upd_eq in E. congruence. }
      assert (M : forall a, m_holding (m_pcs s (act_thread a)) = true \/ m_pcs s (act_thread a) = MIdle ->
                 m_step s a <> s).
      { intros a H E. apply (f_equal m_pcs) in E. unfold m_step in E.
        destruct (m_pcs s (act_thread a)) as [|k|k|k|k r] eqn:Ep; cbn [m_pcs] in E;
          try (refine (U _ _ _ _ E); rewrite Ep; try discriminate; destruct (m_cache s k); discriminate).
        destruct H; discriminate. }
      intros a E. destruct (m_pcs s (act_thread a)) as [|k|k|k|k r] eqn:Ep;
        try (exfalso; apply (M a); [rewrite Ep; first [left; reflexivity | right; reflexivity]|exact E]).
      unfold m_step in E. rewrite Ep in E. destruct (m_lock s) as [t'|] eqn:El.
      + exists k, t'. split; [reflexivity|]. split; [reflexivity|].
        apply (mi_lock s I) in El. split.
        * intros ->. rewrite Ep in El. discriminate.
        * intros k' o. apply M. cbn [act_thread]. auto.
      + exfalso. apply (f_equal m_pcs) in E. cbn [m_pcs] in E. refine (U _ _ _ _ E). rewrite Ep. discriminate.
  Qed.

  (* one success per key *)
  Lemma justified_once (l : list (@m_event V)) : justified l -> forall l1 l2 l3 t t' k v v',
    l = l1 ++ EvRun t k (Ok v) :: l2 ++ EvRun t' k (Ok v') :: l3 -> False.
  Proof.
    intros J l1 l2 l3 t t' k v v' ->. apply justified_app in J. cbn [justified] in J.
    destruct J as [[_ N] _]. apply (N v'). exists t'. apply in_or_app. right. now left.
  Qed.
End Memo.

(* ---------- decision tables ---------- *)
Theorem corr_shape_spec n s :
  match corr_shape n s with
  | Ok l => shape_size l = n /\ ((s = "flat"%string /\ l = [n]) \/
      (s = "matrix"%string /\ (n = 1 \/ n = 2 \/ n = 4)%Z /\
       l = if Z.eqb n 4 then [2; 2]%Z else [n]))
  | Raise e => e = ValueError /\ s <> "flat"%string /\
      (s = "matrix"%string -> n <> 1 /\ n <> 2 /\ n <> 4)%Z
  end.
Proof.
  unfold corr_shape. destruct (String.eqb_spec s "flat") as [->|N1].
  - split; [unfold shape_size; simpl; lia|auto].
  - destruct (String.eqb_spec s "matrix") as [->|N2].
    + destruct (Z.eqb_spec n 1) as [->|A]; [split; [reflexivity|right; repeat split; auto]|].
      destruct (Z.eqb_spec n 2) as [->|B]; [split; [reflexivity|right; repeat split; auto]|].
      destruct (Z.eqb_spec n 4) as [->|C]; [split; [reflexivity|right; repeat split; auto]|].
      repeat split; auto.
    + repeat split; auto; contradiction.
Qed.

Theorem grids_spec dims blocks : (forall b, In b blocks -> (0 < b)%Z) ->
  match grids dims blocks with
  | Ok g => length dims = 3 /\ length blocks = 3 /\ length g = 3 /\
      forall i d b x, nth_error dims i = Some d -> nth_error blocks i = Some b -> nth_error g i = Some x ->
        (d <= x * b /\ forall y, d <= y * b -> x <= y)%Z
  | Raise e => e = ValueError /\ (length dims <> 3 \/ length blocks <> 3)
  end.
Proof.
  intros HB. unfold grids.
  destruct (Nat.eqb_spec (length dims) 3) as [L1|L1]; simpl; [|auto].
  destruct (Nat.eqb_spec (length blocks) 3) as [L2|L2]; simpl; [|auto].
  assert (X : forall ds bs, (forall b, In b bs -> (0 < b)%Z) -> length ds = length bs ->
     exists g, grids_loop ds bs = Ok g /\ length g = length ds /\
      forall i d b x, nth_error ds i = Some d -> nth_error bs i = Some b -> nth_error g i = Some x ->
        (d <= x * b /\ forall y, d <= y * b -> x <= y)%Z).
  { induction ds as [|d ds IH]; intros [|b bs] H L; simpl in L; try lia.
    - exists []. split; [reflexivity|]. split; [reflexivity|]. intros [|i] ? ? ? E; discriminate.
    - destruct (IH bs) as [g [E1 [E2 E3]]]; [intros; apply H; now right|lia|].
      pose proof (H b (or_introl eq_refl)) as Hb.
      cbn [grids_loop]. destruct (Z.eqb_spec b 0); [lia|]. rewrite E1. cbn [bind].
      eexists. split; [reflexivity|]. split; [simpl; lia|].
      intros [|i] d' b' x H1 H2 H3; simpl in *; [|eauto].
      injection H1 as <-. injection H2 as <-. injection H3 as <-.
      pose proof (Z.div_mod (d + b - 1) b ltac:(lia)) as DM.
      pose proof (Z.mod_pos_bound (d + b - 1) b Hb) as MB.
      split; [nia|]. intros y Hy. apply Z.lt_succ_r. apply Z.div_lt_upper_bound; [lia|]. nia. }
  destruct (X dims blocks HB ltac:(lia)) as [g [E1 [E2 E3]]]. rewrite E1.
  split; [exact L1|]. split; [exact L2|]. split; [lia|exact E3].
Qed.

(* requires_optional *)
Lemma req_scan_spec e reqs :
  req_scan e reqs = if existsb bad reqs then Raise TypeError else
    Ok {| rq_have := match missing_of e reqs with [] => true | _ => false end;
          rq_missing := missing_of e reqs; rq_honour := negb (forced reqs); rq_errs := errors_of reqs |}.
Proof.
  unfold req_scan.
  assert (X : forall h m b er,
    fold_left (fun s r => do! s' <- s; req_step e s' r) reqs
       (Ok {| rq_have := h; rq_missing := m; rq_honour := b; rq_errs := er |}) =
    if existsb bad reqs then Raise TypeError else
    Ok {| rq_have := h && match missing_of e reqs with [] => true | _ => false end;
          rq_missing := m ++ missing_of e reqs; rq_honour := b && negb (forced reqs);
          rq_errs := er ++ errors_of reqs |}).
  { induction reqs as [|r l IH]; intros h m b er.
    - simpl. rewrite !app_nil_r, !andb_true_r. reflexivity.
    - cbn [fold_left bind]. destruct r; cbn [req_step existsb bad orb].
      + rewrite IH. reflexivity.
      + rewrite IH. cbn [missing_of errors_of flat_map forced existsb orb]. rewrite <- app_assoc. reflexivity.
      + destruct (importable e name) eqn:Ei.
        * rewrite IH. cbn [missing_of flat_map]. rewrite Ei. reflexivity.
        * rewrite IH. cbn [missing_of flat_map]. rewrite Ei. cbn [app]. rewrite <- app_assoc, andb_false_r. reflexivity.
      + rewrite IH. cbn [forced existsb orb negb]. rewrite andb_false_r. reflexivity.
      + clear IH. assert (F : forall l, fold_left (fun s r => do! s' <- s; req_step e s' r) l (Raise TypeError) = Raise TypeError)
          by (induction l0; [reflexivity|exact IHl0]). apply F. }
  rewrite X. reflexivity.
Qed.

Theorem requires_optional_spec e reqs :
  requires_optional e reqs =
    if on_rtd e then Ok PassStub
    else if existsb bad reqs then Raise TypeError
    else match missing_of e reqs, errors_of reqs with
         | [], [] => Ok Original
         | [], _ :: _ => Raise ImportErrorExn
         | ms, er => Ok (FailStub (negb (forced reqs)) ms er)
         end.
Proof.
  unfold requires_optional. destruct (on_rtd e); [reflexivity|]. rewrite req_scan_spec.
  destruct (existsb bad reqs); [reflexivity|]. cbn [bind rq_have rq_errs rq_missing rq_honour].
  destruct (missing_of e reqs), (errors_of reqs); reflexivity.
Qed.
