From Verif Require Import Prelude CudaModel CudaSpec.
Open Scope nat_scope.

Section Proofs.
  Context {V W : Type}.
  Variable k : kernel V W.
  Variable val : nat -> name -> V.
  Variable spec : name -> option W.
  Variable g : nat -> name -> V.
  Variable s0 : state V W.

  (* no thread of the block writes there *)
  Definition untouched (b : nat) (l : name) : Prop :=
    forall u p i l' f, runs_thread k b u -> p < kn_phases k -> nth_error (kn_code k p b u) i = Some (Share l' f) -> l' <> l.
  Definition before (x y : nat * nat) : Prop := fst x < fst y \/ (fst x = fst y /\ snd x < snd y).
  (* places whose contents thread t of block b may rely on at (p, i) *)
  Definition known (b t p i : nat) (l : name) : Prop :=
    (exists p' i' f, before (p', i') (p, i) /\ nth_error (kn_code k p' b t) i' = Some (Share l f)) \/
    (exists q u p' i' f, q < p /\ runs_thread k b u /\ kn_group k q u = kn_group k q t /\ p' <= q /\ nth_error (kn_code k p' b u) i' = Some (Share l f)) \/
    (untouched b l /\ val b l = g b l).
  Definition consistent : Prop :=
    forall b t p i ins, runs_thread k b t -> p < kn_phases k -> nth_error (kn_code k p b t) i = Some ins -> ~ before (p, i) (st_pc s0 b t) ->
      forall m, (forall l, known b t p i l -> m l = val b l) ->
      match ins with Share l f => f m = val b l | Store o f => spec o = Some (f m) end.
  Definition covered : Prop := forall o w, spec o = Some w ->
    exists b t p i f, runs_thread k b t /\ p < kn_phases k /\ nth_error (kn_code k p b t) i = Some (Store o f).

  Hypothesis HP : 0 < kn_phases k.
  Hypothesis HC : consistent.
  Hypothesis HV : covered.

  Record inv (o0 : name -> W) (s : state V W) : Prop := {
    i_range : forall b t, fst (st_pc s b t) < kn_phases k /\ snd (st_pc s b t) <= length (kn_code k (fst (st_pc s b t)) b t);
    i_shared : forall b t p i l f, runs_thread k b t -> before (p, i) (st_pc s b t) -> nth_error (kn_code k p b t) i = Some (Share l f) -> st_shared s b l = val b l;
    i_out : forall b t p i o f, runs_thread k b t -> before (p, i) (st_pc s b t) -> nth_error (kn_code k p b t) i = Some (Store o f) -> spec o = Some (st_out s o);
    i_bar : forall b t u q, runs_thread k b t -> runs_thread k b u -> q < fst (st_pc s b t) -> kn_group k q u = kn_group k q t -> reached k s b u q;
    i_untouched : forall b l, untouched b l -> st_shared s b l = g b l;
    i_mono : forall b t, ~ before (st_pc s b t) (st_pc s0 b t);
    i_frame : forall o, st_out s o = o0 o \/ spec o = Some (st_out s o)
  }.

  Lemma set_pc_same pc b t v : set_pc pc b t v b t = v.
  Proof. unfold set_pc. now rewrite !Nat.eqb_refl. Qed.
  Lemma set_pc_other pc b t v b' t' : (b', t') <> (b, t) -> set_pc pc b t v b' t' = pc b' t'.
  Proof. intros H. unfold set_pc. destruct (Nat.eqb_spec b' b) as [->|]; [|reflexivity]. destruct (Nat.eqb_spec t' t) as [->|]; [congruence|reflexivity]. Qed.
  Lemma pair_dec (x y : nat * nat) : x = y \/ x <> y.
  Proof. destruct x as [a b], y as [c d]. destruct (Nat.eq_dec a c), (Nat.eq_dec b d); subst; auto; right; congruence. Qed.
  Lemma name_eqb_spec x y : reflect (x = y) (name_eqb x y).
  Proof. unfold name_eqb. destruct (list_eq_dec Nat.eq_dec x y); constructor; auto. Qed.
  Lemma write_same {A} (m : name -> A) l v : write m l v l = v.
  Proof. unfold write. destruct (name_eqb_spec l l); congruence. Qed.
  Lemma write_other {A} (m : name -> A) l v l' : l' <> l -> write m l v l' = m l'.
  Proof. unfold write. destruct (name_eqb_spec l' l); congruence. Qed.

  Lemma inv_init o : s0 = init g o -> inv o s0.
  Proof.
    intros ->. constructor; cbn [init st_pc st_shared st_out fst snd]; intros; auto; try lia.
    all: try (unfold before in *; cbn in *; lia).
    rewrite H. cbn. unfold before, not. cbn. lia.
  Qed.

  Lemma reached_done s b u q p i : reached k s b u q -> p <= q -> i < length (kn_code k p b u) -> before (p, i) (st_pc s b u).
  Proof. intros [H|H] Hp Hi; unfold before; cbn [fst snd]; [left; lia|]. rewrite H. cbn [fst snd]. destruct (Nat.eq_dec p q) as [->|]; [right|left]; lia. Qed.

  Lemma known_val o0 s b t p i l : inv o0 s -> runs_thread k b t -> st_pc s b t = (p, i) -> known b t p i l -> st_shared s b l = val b l.
  Proof.
    intros I R E [(p' & i' & f & B & N)|[(q & u & p' & i' & f & Q & RU & G & L & N)|(U & ->)]]; [| |apply (i_untouched _ _ I); auto].
    - eapply (i_shared _ _ I); eauto. now rewrite E.
    - assert (RC := i_bar _ _ I b t u q R RU). rewrite E in RC. specialize (RC Q G).
      eapply (i_shared _ _ I b u p' i'); eauto. eapply reached_done; eauto. apply nth_error_Some. congruence.
  Qed.

  Lemma inv_step o0 s s' : inv o0 s -> step k s s' -> inv o0 s'.
  Proof.
    intros I S. destruct S as [b t p i ins R E P N|b t p R E P B].
    - assert (FR : ~ before (p, i) (st_pc s0 b t)) by (rewrite <- E; apply (i_mono _ _ I)).
      assert (C := HC b t p i ins R P N FR (st_shared s b) (fun l K => known_val o0 s b t p i l I R E K)).
      assert (LI : i < length (kn_code k p b t)) by (apply nth_error_Some; congruence).
      assert (NEW : forall b' t' p' i', before (p', i') (set_pc (st_pc s) b t (p, S i) b' t') ->
                     before (p', i') (st_pc s b' t') \/ (b' = b /\ t' = t /\ p' = p /\ i' = i)).
      { intros b' t' p' i' H. destruct (pair_dec (b', t') (b, t)) as [Q|Q].
        - injection Q as -> ->. rewrite set_pc_same in H. rewrite E. unfold before in *. cbn [fst snd] in *.
          destruct (Nat.eq_dec p' p) as [->|]; [destruct (Nat.eq_dec i' i) as [->|]; auto; left; right; lia|left; left; lia].
        - rewrite set_pc_other in H by auto. auto. }
      constructor; cbn [st_pc st_shared st_out].
      + intros b' t'. destruct (pair_dec (b', t') (b, t)) as [Q|Q].
        * injection Q as -> ->. rewrite set_pc_same. cbn [fst snd]. lia.
        * rewrite set_pc_other by auto. apply (i_range _ _ I).
      + intros b' t' p' i' l f R' B' N'. destruct (NEW _ _ _ _ B') as [OLD|(-> & -> & -> & ->)].
        * assert (H := i_shared _ _ I _ _ _ _ _ _ R' OLD N'). destruct ins as [l0 f0|o f0]; cbn [perform fst]; [|exact H].
          destruct (Nat.eqb_spec b' b) as [->|]; [|exact H]. destruct (name_eqb_spec l l0) as [->|NE]; [now rewrite write_same|]. now rewrite write_other.
        * rewrite N in N'. injection N' as ->. cbn [perform fst]. rewrite Nat.eqb_refl, write_same. exact C.
      + intros b' t' p' i' o f R' B' N'. destruct (NEW _ _ _ _ B') as [OLD|(-> & -> & -> & ->)].
        * assert (H := i_out _ _ I _ _ _ _ _ _ R' OLD N'). destruct ins as [l0 f0|o0' f0]; cbn [perform snd]; [exact H|].
          destruct (name_eqb_spec o o0') as [->|NE]; [now rewrite write_same|]. now rewrite write_other.
        * rewrite N in N'. injection N' as ->. cbn [perform snd]. rewrite write_same. exact C.
      + intros b' t' u q R' RU Q G.
        assert (RE : reached k s b' u q).
        { apply (i_bar _ _ I b' t' u q R' RU); auto. destruct (pair_dec (b', t') (b, t)) as [QQ|QQ].
          - injection QQ as -> ->. rewrite set_pc_same in Q. rewrite E. exact Q.
          - now rewrite set_pc_other in Q by auto. }
        unfold reached in *. cbn [st_pc]. destruct (pair_dec (b', u) (b, t)) as [QQ|QQ].
        * injection QQ as -> ->. rewrite set_pc_same. rewrite E in RE. cbn [fst] in *. destruct RE as [RE|RE]; [auto|]. injection RE as -> ->. lia.
        * now rewrite set_pc_other by auto.
      + intros b' l U. destruct ins as [l0 f0|o1 f0]; cbn [perform fst]; [|apply (i_untouched _ _ I); auto].
        destruct (Nat.eqb_spec b' b) as [->|]; [|apply (i_untouched _ _ I); auto].
        rewrite write_other; [apply (i_untouched _ _ I); auto|]. intros ->. exact (U t p i l0 f0 R P N eq_refl).
      + intros b' t'. destruct (pair_dec (b', t') (b, t)) as [Q|Q].
        * injection Q as -> ->. rewrite set_pc_same. intros H. apply FR. unfold before in *. cbn [fst snd] in *. lia.
        * rewrite set_pc_other by auto. apply (i_mono _ _ I).
      + intros o. destruct ins as [l0 f0|o1 f0]; cbn [perform snd]; [apply (i_frame _ _ I)|].
        destruct (name_eqb_spec o o1) as [->|NE]; [right; now rewrite write_same|]. rewrite write_other by auto. apply (i_frame _ _ I).
    - assert (NEW : forall b' t' p' i', i' < length (kn_code k p' b' t') -> before (p', i') (set_pc (st_pc s) b t (S p, 0) b' t') -> before (p', i') (st_pc s b' t')).
      { intros b' t' p' i' L H. destruct (pair_dec (b', t') (b, t)) as [Q|Q].
        - injection Q as -> ->. rewrite set_pc_same in H. rewrite E. unfold before in *. cbn [fst snd] in *. destruct (Nat.eq_dec p' p) as [->|]; [right|left]; lia.
        - now rewrite set_pc_other in H by auto. }
      constructor; cbn [st_pc st_shared st_out].
      + intros b' t'. destruct (pair_dec (b', t') (b, t)) as [Q|Q].
        * injection Q as -> ->. rewrite set_pc_same. cbn [fst snd]. lia.
        * rewrite set_pc_other by auto. apply (i_range _ _ I).
      + intros b' t' p' i' l f R' B' N'. eapply (i_shared _ _ I); eauto. apply NEW; auto. apply nth_error_Some. congruence.
      + intros b' t' p' i' o f R' B' N'. eapply (i_out _ _ I); eauto. apply NEW; auto. apply nth_error_Some. congruence.
      + intros b' t' u q R' RU Q G.
        assert (RE : reached k s b' u q).
        { destruct (pair_dec (b', t') (b, t)) as [QQ|QQ].
          - injection QQ as -> ->. rewrite set_pc_same in Q. cbn [fst] in Q. destruct (Nat.eq_dec q p) as [->|].
            + apply B; auto.
            + apply (i_bar _ _ I b t u q R' RU); auto. rewrite E. cbn [fst]. lia.
          - apply (i_bar _ _ I b' t' u q R' RU); auto. now rewrite set_pc_other in Q by auto. }
        unfold reached in *. cbn [st_pc]. destruct (pair_dec (b', u) (b, t)) as [QQ|QQ].
        * injection QQ as -> ->. rewrite set_pc_same. rewrite E in RE. cbn [fst] in *. destruct RE as [RE|RE]; [left; lia|]. injection RE as -> _. left. lia.
        * now rewrite set_pc_other by auto.
      + apply (i_untouched _ _ I).
      + intros b' t'. destruct (pair_dec (b', t') (b, t)) as [Q|Q].
        * injection Q as -> ->. rewrite set_pc_same. assert (M := i_mono _ _ I b t). rewrite E in M. intros H. apply M. unfold before in *. cbn [fst snd] in *. lia.
        * rewrite set_pc_other by auto. apply (i_mono _ _ I).
      + apply (i_frame _ _ I).
  Qed.
  Lemma inv_runs o n s s' : inv o s -> runs k n s s' -> inv o s'.
  Proof. intros I H. induction H as [s|n s s1 s2 H IH S]; [exact I|]. exact (inv_step o s1 s2 (IH I) S). Qed.

  Lemma all_or_not n (P : nat -> Prop) : (forall i, P i \/ ~ P i) -> (forall i, i < n -> P i) \/ exists i, i < n /\ ~ P i.
  Proof.
    intros D. induction n as [|n [IH|(i & Hi & N)]]; [left; intros; lia| |right; exists i; split; auto; lia].
    destruct (D n) as [Y|N]; [left|right; exists n; split; auto; lia]. intros i Hi. destruct (Nat.eq_dec i n) as [->|]; auto. apply IH. lia.
  Qed.
  Lemma runs_thread_dec b t : runs_thread k b t \/ ~ runs_thread k b t.
  Proof. unfold runs_thread. destruct (lt_dec b (kn_blocks k)), (lt_dec t (kn_threads k)), (kn_active k b t); tauto || (right; intros (?&?&?); congruence). Qed.
  Lemma reached_dec s b u p : reached k s b u p \/ ~ reached k s b u p.
  Proof. unfold reached. destruct (lt_dec p (fst (st_pc s b u))); auto. destruct (pair_dec (st_pc s b u) (p, length (kn_code k p b u))); tauto. Qed.

  Lemma can_step o0 s : inv o0 s -> forall p b t i, runs_thread k b t -> st_pc s b t = (p, i) ->
    (p, i) <> (kn_phases k - 1, length (kn_code k (kn_phases k - 1) b t)) -> exists s', step k s s'.
  Proof.
    intros I. induction p as [p IH] using (well_founded_induction lt_wf). intros b t i R E NE.
    assert (EX : forall u j, runs_thread k b u -> st_pc s b u = (p, j) -> j < length (kn_code k p b u) -> exists s', step k s s').
    { intros u j RU EU L. destruct (nth_error (kn_code k p b u) j) as [ins|] eqn:N; [|apply nth_error_None in N; lia].
      eexists. eapply step_exec; eauto. destruct (i_range _ _ I b u) as [H _]. now rewrite EU in H. }
    destruct (i_range _ _ I b t) as [Hp Hi]. rewrite E in Hp, Hi. cbn [fst snd] in *.
    destruct (Nat.eq_dec i (length (kn_code k p b t))) as [->|]; [|apply (EX t i); auto; lia].
    assert (SP : S p < kn_phases k). { destruct (Nat.eq_dec p (kn_phases k - 1)) as [->|]; [congruence|lia]. }
    destruct (all_or_not (kn_threads k) (fun u => runs_thread k b u -> kn_group k p u = kn_group k p t -> reached k s b u p)) as [A|(u & Hu & N)].
    { intros u. destruct (runs_thread_dec b u), (Nat.eq_dec (kn_group k p u) (kn_group k p t)), (reached_dec s b u p); tauto. }
    - eexists. eapply step_barrier; eauto. intros u RU. apply A; auto. apply RU.
    - destruct (runs_thread_dec b u) as [RU|]; [|tauto]. destruct (reached_dec s b u p) as [|NR]; [tauto|].
      destruct (st_pc s b u) as [q j] eqn:EU. unfold reached in NR. rewrite EU in NR. cbn [fst] in NR.
      destruct (i_range _ _ I b u) as [Hq Hj]. rewrite EU in Hq, Hj. cbn [fst snd] in *.
      destruct (Nat.eq_dec q p) as [->|]; [apply (EX u j); auto; destruct (Nat.eq_dec j (length (kn_code k p b u))) as [->|]; [tauto|lia]|].
      apply (IH q) with (b := b) (t := u) (i := j); auto; [lia|]. intros Q. injection Q as -> _. lia.
  Qed.
  Lemma progress o0 s : inv o0 s -> finished k s \/ exists s', step k s s'.
  Proof.
    intros I. set (P := fun b t => runs_thread k b t -> st_pc s b t = (kn_phases k - 1, length (kn_code k (kn_phases k - 1) b t))).
    destruct (all_or_not (kn_blocks k) (fun b => forall t, t < kn_threads k -> P b t)) as [A|(b & Hb & N)].
    { intros b. destruct (all_or_not (kn_threads k) (P b)) as [A|(t & Ht & N)]; [|left; auto|right; intros H; apply N; auto].
      intros t. unfold P. destruct (runs_thread_dec b t); [|tauto]. destruct (pair_dec (st_pc s b t) (kn_phases k - 1, length (kn_code k (kn_phases k - 1) b t))); tauto. }
    - left. intros b t R. apply A; auto; apply R.
    - right. destruct (all_or_not (kn_threads k) (P b)) as [A|(t & Ht & N')].
      { intros t. unfold P. destruct (runs_thread_dec b t); [|tauto]. destruct (pair_dec (st_pc s b t) (kn_phases k - 1, length (kn_code k (kn_phases k - 1) b t))); tauto. }
      { exfalso. apply N. auto. }
      unfold P in N'. destruct (runs_thread_dec b t) as [R|]; [|tauto]. destruct (st_pc s b t) as [p i] eqn:E.
      apply (can_step o0 s I p b t i R E). tauto.
  Qed.

  (* number of steps *)
  Fixpoint weight (b t p : nat) : nat := match p with O => 0 | S p => weight b t p + S (length (kn_code k p b t)) end.
  Definition spent (s : state V W) (b t : nat) : nat := weight b t (fst (st_pc s b t)) + snd (st_pc s b t).
  Fixpoint total (n : nat) (f : nat -> nat) : nat := match n with O => 0 | S n => total n f + f n end.
  Definition spent_all (s : state V W) : nat := total (kn_blocks k) (fun b => total (kn_threads k) (spent s b)).
  Lemma total_le n f h : (forall i, i < n -> f i <= h i) -> total n f <= total n h.
  Proof. intros H. induction n as [|n IH]; cbn; [lia|]. specialize (IH ltac:(auto)). specialize (H n ltac:(lia)). lia. Qed.
  Lemma total_lt n f h i : (forall i, i < n -> f i <= h i) -> i < n -> f i < h i -> total n f < total n h.
  Proof.
    intros H Hi L. induction n as [|n IH]; [lia|]. cbn. destruct (Nat.eq_dec i n) as [->|].
    - assert (total n f <= total n h) by (apply total_le; auto). lia.
    - specialize (IH ltac:(auto) ltac:(lia)). specialize (H n ltac:(lia)). lia.
  Qed.
  Lemma spent_step s s' : step k s s' -> spent_all s < spent_all s'.
  Proof.
    intros S. assert (exists b t, runs_thread k b t /\ spent s b t < spent s' b t /\ forall b' t', (b', t') <> (b, t) -> spent s' b' t' = spent s b' t') as (b & t & R & L & O).
    { destruct S as [b t p i ins R E P N|b t p R E P B]; exists b, t; (split; [exact R|]); split.
      1,3: unfold spent; cbn [st_pc]; rewrite set_pc_same, E; cbn [fst snd weight]; lia.
      all: intros b' t' Q; unfold spent; cbn [st_pc]; now rewrite set_pc_other. }
    destruct R as (Hb & Ht & _). unfold spent_all.
    assert (Le : forall b' t', spent s b' t' <= spent s' b' t').
    { intros b' t'. destruct (pair_dec (b', t') (b, t)) as [Q|Q]; [injection Q as -> ->; lia|rewrite O by auto; lia]. }
    eapply total_lt with (i := b); auto.
    - intros. apply total_le. auto.
    - eapply total_lt with (i := t); auto.
  Qed.
  Lemma weight_mono b t p q : p <= q -> weight b t p <= weight b t q.
  Proof. intros H. induction H; cbn; lia. Qed.
  Lemma spent_bound o0 s : inv o0 s -> spent_all s <= total (kn_blocks k) (fun b => total (kn_threads k) (fun t => weight b t (kn_phases k))).
  Proof.
    intros I. unfold spent_all. apply total_le. intros b _. apply total_le. intros t _. unfold spent.
    destruct (i_range _ _ I b t) as [Hp Hi]. assert (M := weight_mono b t (S (fst (st_pc s b t))) (kn_phases k) ltac:(lia)). cbn [weight] in M. lia.
  Qed.
  Lemma spent_runs n s s' : runs k n s s' -> spent_all s + n <= spent_all s'.
  Proof. intros H. induction H as [s|n s s' s'' H IH S]; [lia|]. apply spent_step in S. lia. Qed.

  Theorem leaves_from o : inv o s0 -> leaves k s0 o spec.
  Proof.
    intros I0. split.
    - eexists. intros n s H. assert (I := inv_runs _ _ _ _ I0 H). apply spent_bound in I. apply spent_runs in H.
      eapply Nat.le_trans; [|exact I]. lia.
    - intros n s H. assert (I := inv_runs _ _ _ _ I0 H). split; [eapply progress; eauto|]. intros F x.
      destruct (spec x) as [w|] eqn:E.
      + destruct (HV x w E) as (b & t & p & i & f & R & P & N). assert (L : i < length (kn_code k p b t)) by (apply nth_error_Some; congruence).
        assert (D : before (p, i) (st_pc s b t)). { rewrite (F b t R). unfold before. cbn [fst snd]. destruct (Nat.eq_dec p (kn_phases k - 1)) as [->|]; [right|left]; lia. }
        assert (Q := i_out _ _ I _ _ _ _ _ _ R D N). congruence.
      + destruct (i_frame _ _ I x) as [Q|Q]; congruence.
  Qed.
End Proofs.

Theorem leaves_ok {V W} (k : kernel V W) val spec g o : 0 < kn_phases k -> consistent k val spec g (init g o) -> covered k spec -> leaves k (init g o) o spec.
Proof. intros P C D. apply (leaves_from k val spec g (init g o) P C D). now apply inv_init. Qed.
Theorem computes_ok {V W} (k : kernel V W) val spec : 0 < kn_phases k -> (forall g o, consistent k val spec g (init g o)) -> covered k spec -> computes k spec.
Proof. intros P C D g o. apply (leaves_ok k val); auto. Qed.

(* a launch does end *)
Theorem leaves_ends {V W} (k : kernel V W) spec s0 o : leaves k s0 o spec -> exists n s, runs k n s0 s /\ finished k s.
Proof.
  intros [(bound & B) S].
  assert (H : forall d n s, runs k n s0 s -> bound - n <= d -> exists n s, runs k n s0 s /\ finished k s).
  { induction d as [|d IH]; intros n s R Hd; destruct (S n s R) as [[F|(s' & T)] _]; eauto.
    - assert (R' := runs_S k _ _ _ _ R T). apply B in R'. lia.
    - apply (IH _ _ (runs_S k _ _ _ _ R T)). lia. }
  apply (H bound 0 s0); [constructor|lia].
Qed.
Theorem computes_ends {V W} (k : kernel V W) spec g o : computes k spec -> exists n s, runs k n (init g o) s /\ finished k s.
Proof. intros C. exact (leaves_ends k spec _ _ (C g o)). Qed.
