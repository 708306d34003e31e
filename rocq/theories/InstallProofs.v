(* Proofs about the installation of header libraries. *)
From Coq Require Import String Lia.
From Verif Require Import Prelude InstallModel InstallSpec.
Open Scope nat_scope.
Open Scope list_scope.

Section P.
  Context {B : Type}.
  Variables (good : B -> bool) (unzip : B -> option tree) (installed : option tree -> bool) (zip_dir : string) (same_fs : bool).
  Notation tst := (tstep good unzip installed zip_dir same_fs).
  Notation stp := (step good unzip installed zip_dir same_fs).
  Notation runs := (run good unzip installed zip_dir same_fs).
  Notation PC := (@pc B).

  Ltac known cs t := match goal with E : _ = cs t |- _ =>
      repeat match goal with X : context [cs t] |- _ => lazymatch X with E => fail | _ => rewrite <- E in X end end;
      rename E into Ec end.
  Lemma set_pc_eq : forall (cs : nat -> PC) t c, set_pc cs t c t = c.
  Proof. intros. unfold set_pc. rewrite Nat.eqb_refl. reflexivity. Qed.
  Lemma set_pc_neq : forall (cs : nat -> PC) t c t', t' <> t -> set_pc cs t c t' = cs t'.
  Proof. intros cs t c t' N. unfold set_pc. destruct (Nat.eqb_spec t' t); [contradiction | reflexivity]. Qed.
  Lemma set_proc_eq : forall (s : @state B) d p q, procs (set_proc s d p q) p = q.
  Proof. intros. cbn. rewrite Nat.eqb_refl. reflexivity. Qed.
  Lemma set_proc_neq : forall (s : @state B) d p q p', p' <> p -> procs (set_proc s d p q) p' = procs s p'.
  Proof. intros s d p q p' N. cbn. destruct (Nat.eqb_spec p' p); [contradiction | reflexivity]. Qed.

  (* the lock *)
  Definition lock_ok (l : option nat) (cs : nat -> PC) : Prop := forall t, holds_lock (cs t) <-> l = Some t.

  Lemma lock_step : forall t f g l cs f' g' l' c',
    tst t (f, g, l, cs t) (f', g', l', c') -> lock_ok l cs -> lock_ok l' (set_pc cs t c').
  Proof.
    intros t f g l cs f' g' l' c' H L.
    remember (cs t) as c eqn:Ec.
    assert (Lt := L t). rewrite <- Ec in Lt.
    assert (K : forall l0 c0, l0 = l -> (holds_lock c0 <-> holds_lock c) -> lock_ok l0 (set_pc cs t c0)).
    { intros l0 c0 El Ec0 t'. subst l0. destruct (Nat.eq_dec t' t) as [->|N];
        [rewrite set_pc_eq, Ec0; exact Lt | rewrite set_pc_neq by exact N; apply L]. }
    inversion H; subst; known cs t; try (apply K; [reflexivity | cbn; tauto]).
    - (* acquire *)
      intro t'. destruct (Nat.eq_dec t' t) as [->|N]; [rewrite set_pc_eq; cbn; split; auto |].
      rewrite set_pc_neq by exact N. split; intro X; [apply L in X; discriminate | injection X as X; congruence].
    - (* release *)
      intro t'. destruct (Nat.eq_dec t' t) as [->|N]; [rewrite set_pc_eq; cbn; split; [tauto | discriminate] |].
      rewrite set_pc_neq by exact N. split; intro X; [| discriminate].
      apply L in X. assert (Y : l = Some t) by (apply Lt; cbn; exact I). congruence.
  Qed.

  Definition locks_ok (s : @state B) : Prop := forall p q, procs s p = Some q -> lock_ok (lock q) (pcs q).
  Lemma locks_run : forall solo s s', locks_ok s -> runs solo s s' -> locks_ok s'.
  Proof.
    intros solo s s' H R. induction R as [|s1 s2 R IH St]; [exact H |].
    intros p q E. inversion St as [p0 N A | p0 q0 A | p0 q0 t f' g' l' c' A T]; subst s2;
      (destruct (Nat.eq_dec p p0) as [->|N']; [rewrite set_proc_eq in E | rewrite set_proc_neq in E by exact N'; exact (IH _ _ E)]).
    - injection E as <-. intro t; cbn. split; [tauto | discriminate].
    - discriminate.
    - injection E as <-. cbn. exact (lock_step _ _ _ _ _ _ _ _ _ T (IH _ _ A)).
  Qed.
  Lemma locks_nobody : forall d, locks_ok (nobody d).
  Proof. intros d p q E. discriminate. Qed.

  Lemma lock_lemma : forall solo d s p q t,
    runs solo (nobody d) s -> procs s p = Some q -> (lock q = Some t <-> holds_lock (pcs q t)).
  Proof. intros solo d s p q t R E. symmetry. exact (locks_run _ _ _ (locks_nobody d) R _ _ E t). Qed.

  (* a thread that does not wait for the lock can go on *)
  Lemma moves : forall (s : @state B) p q t, procs s p = Some q -> lock q = None \/ pcs q t <> Wait ->
    can_move good unzip installed zip_dir same_fs s p t.
  Proof.
    intros s p q t E H.
    enough (exists x, tst t (disk s, flag q, lock q, pcs q t) x) as (x & X) by (exists q, x; split; assumption).
    destruct (pcs q t) eqn:C; try (eexists; apply t_open_fails); try (eexists; apply t_write_end); try (eexists; econstructor; fail).
    - destruct (flag q); eexists; econstructor.
    - destruct H as [H|H]; [| contradiction]. rewrite H. eexists. econstructor.
    - destruct (flag q); eexists; econstructor.
    - destruct (archive (disk s)) as [b|] eqn:A.
      + destruct (good b) eqn:G; eexists; [eapply t_look_hit; eassumption |].
        apply t_look_miss. intros b' A'. rewrite A in A'. injection A' as <-. exact G.
      + eexists. apply t_look_miss. intros b' A'. rewrite A in A'. discriminate.
    - destruct (installed (target (disk s))) eqn:I; eexists; [apply t_check_ok | apply t_check_bad]; exact I.
  Qed.

  Lemma progress_lemma : forall solo d s p q t,
    runs solo (nobody d) s -> procs s p = Some q ->
    can_move good unzip installed zip_dir same_fs s p t \/
    exists t', lock q = Some t' /\ t' <> t /\ can_move good unzip installed zip_dir same_fs s p t'.
  Proof.
    intros solo d s p q t R E.
    assert (L : lock_ok (lock q) (pcs q)) by (intro t'; symmetry; exact (lock_lemma _ _ _ _ _ t' R E)).
    destruct (lock q) as [t'|] eqn:Lk; [| left; apply (moves s p q t E); left; exact Lk].
    destruct (Nat.eq_dec t' t) as [->|N].
    - left. apply (moves s p q t E). right. intro W. apply (proj2 (L t)) in Lk || idtac.
      assert (X : holds_lock (pcs q t)) by (apply L; reflexivity). rewrite W in X. exact X.
    - right. exists t'. repeat split; [exact N |]. apply (moves s p q t' E). right. intro W.
      assert (X : holds_lock (pcs q t')) by (apply L; reflexivity). rewrite W in X. exact X.
  Qed.

  (* one process at a time *)
  Definition alone (s : @state B) : Prop := forall p p' q q', procs s p = Some q -> procs s p' = Some q' -> p = p'.

  Section Inv.
    (* DI: the disk; PI: one process with the disk *)
    Variable DI : @fs B -> Prop.
    Variable PI : @fs B -> bool -> (nat -> PC) -> Prop.
    Hypothesis Hstart : forall d, DI d -> PI d (installed (target d)) (fun _ => Idle).
    Hypothesis Hstep : forall t d g l cs d' g' l' c',
      tst t (d, g, l, cs t) (d', g', l', c') -> lock_ok l cs -> DI d -> PI d g cs -> DI d' /\ PI d' g' (set_pc cs t c').

    Definition inv (s : @state B) : Prop :=
      alone s /\ locks_ok s /\ DI (disk s) /\ forall p q, procs s p = Some q -> PI (disk s) (flag q) (pcs q).

    Lemma inv_step : forall s s', inv s -> stp true s s' -> inv s'.
    Proof.
      intros s s' (A & L & D & P) St.
      assert (L' : locks_ok s').
      { eapply locks_run; [exact L |]. eapply run_step; [apply run_none | exact St]. }
      inversion St as [p N Al | p q E | p q t f' g' l' c' E T]; subst s'.
      - assert (Z : forall p', procs s p' = None) by (apply Al; reflexivity).
        split; [| split; [exact L' | split]].
        + intros p1 p2 q1 q2 E1 E2. destruct (Nat.eq_dec p1 p) as [->|N1];
            [| rewrite set_proc_neq in E1 by exact N1; congruence].
          destruct (Nat.eq_dec p2 p) as [->|N2]; [reflexivity | rewrite set_proc_neq in E2 by exact N2; congruence].
        + exact D.
        + intros p1 q1 E1. destruct (Nat.eq_dec p1 p) as [->|N1]; [| rewrite set_proc_neq in E1 by exact N1; congruence].
          rewrite set_proc_eq in E1. injection E1 as <-. cbn. apply Hstart. exact D.
      - split; [| split; [exact L' | split]].
        + intros p1 p2 q1 q2 E1 E2. destruct (Nat.eq_dec p1 p) as [->|N1]; [rewrite set_proc_eq in E1; discriminate |].
          destruct (Nat.eq_dec p2 p) as [->|N2]; [rewrite set_proc_eq in E2; discriminate |].
          rewrite set_proc_neq in E1 by exact N1. rewrite set_proc_neq in E2 by exact N2. eapply A; eassumption.
        + exact D.
        + intros p1 q1 E1. destruct (Nat.eq_dec p1 p) as [->|N1]; [rewrite set_proc_eq in E1; discriminate |].
          rewrite set_proc_neq in E1 by exact N1. exact (P _ _ E1).
      - destruct (Hstep _ _ _ _ _ _ _ _ _ T (L _ _ E) D (P _ _ E)) as (D' & P').
        split; [| split; [exact L' | split]].
        + intros p1 p2 q1 q2 E1 E2. destruct (Nat.eq_dec p1 p) as [->|N1].
          * destruct (Nat.eq_dec p2 p) as [->|N2]; [reflexivity |].
            rewrite set_proc_neq in E2 by exact N2. exact (A _ _ _ _ E E2).
          * rewrite set_proc_neq in E1 by exact N1. exfalso. apply N1. exact (A _ _ _ _ E1 E).
        + exact D'.
        + intros p1 q1 E1. destruct (Nat.eq_dec p1 p) as [->|N1].
          * rewrite set_proc_eq in E1. injection E1 as <-. cbn. exact P'.
          * rewrite set_proc_neq in E1 by exact N1. exfalso. apply N1. exact (A _ _ _ _ E1 E).
    Qed.

    Lemma inv_run : forall s s', inv s -> runs true s s' -> inv s'.
    Proof. intros s s' H R. induction R as [|s1 s2 R IH St]; [exact H | exact (inv_step _ _ IH St)]. Qed.
    Lemma inv_nobody : forall d, DI d -> inv (nobody d).
    Proof.
      intros d D. split; [| split; [apply locks_nobody | split; [exact D |]]]; intro p; intros; discriminate.
    Qed.
  End Inv.

  (* the flag *)
  Definition flag_inv (d : @fs B) (g : bool) (cs : nat -> PC) : Prop :=
    (g = true -> installed (target d) = true) /\
    (forall t, cs t = SetFlag -> installed (target d) = true) /\
    (forall t, installing (cs t) -> g = false) /\
    (forall t, cs t = Release (Ok tt) \/ cs t = Done (Ok tt) -> g = true).

  Lemma installing_holds : forall c : PC, installing c -> holds_lock c.
  Proof. intros c H. destruct c; cbn in *; tauto. Qed.

  Lemma flag_step : forall t d g l cs d' g' l' c',
    tst t (d, g, l, cs t) (d', g', l', c') -> lock_ok l cs -> True -> flag_inv d g cs -> True /\ flag_inv d' g' (set_pc cs t c').
  Proof.
    intros t d g l cs d' g' l' c' H L _ (F1 & F2 & F3 & F4). split; [exact I |].
    remember (cs t) as c eqn:Ec.
    assert (Ex : forall t', t' <> t -> holds_lock c -> ~ holds_lock (cs t')).
    { intros t' N Hc Hx. rewrite Ec in Hc. apply L in Hc. apply L in Hx. congruence. }
    assert (G3 := F3 t). rewrite <- Ec in G3. assert (G4 := F4 t). rewrite <- Ec in G4.
    assert (G2 := F2 t). rewrite <- Ec in G2.
    (* a step that keeps flag and installed *)
    assert (K : forall d0 c0, installed (target d0) = installed (target d) ->
        (c0 = SetFlag -> installed (target d) = true) -> (installing c0 -> g = false) ->
        (c0 = Release (Ok tt) \/ c0 = Done (Ok tt) -> g = true) -> flag_inv d0 g (set_pc cs t c0)).
    { intros d0 c0 Hd H2 H3 H4. unfold flag_inv. rewrite Hd. split; [exact F1 |].
      split; [| split]; intros t' X; (destruct (Nat.eq_dec t' t) as [->|N]; [rewrite set_pc_eq in X | rewrite set_pc_neq in X by exact N]);
        [exact (H2 X) | exact (F2 _ X) | exact (H3 X) | exact (F3 _ X) | exact (H4 X) | exact (F4 _ X)]. }
    (* a step that changes the directory, lock held *)
    assert (K' : forall d0 c0, holds_lock c -> g = false -> c0 <> SetFlag ->
        c0 <> Release (Ok tt) -> c0 <> Done (Ok tt) -> flag_inv d0 g (set_pc cs t c0)).
    { intros d0 c0 Hc Hg N1 N2 N3. split; [congruence |].
      split; [| split]; intros t' X; (destruct (Nat.eq_dec t' t) as [->|N]; [rewrite set_pc_eq in X | rewrite set_pc_neq in X by exact N]).
      - contradiction.
      - exfalso. apply (Ex t' N Hc). rewrite X. exact I.
      - exact Hg.
      - exact Hg.
      - destruct X; contradiction.
      - destruct X as [X|X]; [exfalso; apply (Ex t' N Hc); rewrite X; exact I |].
        exact (F4 t' (or_intror X)). }
    inversion H; subst; known cs t;
      try (apply K; [reflexivity | intro; congruence | cbn; intuition congruence | intuition congruence]).
    all: try (apply K'; [exact I | apply G3; exact I | discriminate | discriminate | discriminate]).
    all: try (apply K; [reflexivity | intro; congruence | intro; apply G3; exact I | intuition congruence]).
    - (* set *)
      split; [intro; apply G2; reflexivity |].
      split; [| split]; intros t' X; (destruct (Nat.eq_dec t' t) as [->|N]; [rewrite set_pc_eq in X | rewrite set_pc_neq in X by exact N]).
      + discriminate.
      + exact (F2 _ X).
      + destruct X.
      + exfalso. apply (Ex t' N I). apply installing_holds. exact X.
      + reflexivity.
      + reflexivity.
    - (* release *)
      apply K; [reflexivity | intro; congruence | cbn; tauto |].
      intros [X|X]; [discriminate |]. injection X as ->. apply G4. left. reflexivity.
  Qed.

  Lemma flag_start : forall d, True -> flag_inv d (installed (target d)) (fun _ => Idle).
  Proof. intros d _. split; [tauto |]. split; [| split]; intros t X; [discriminate | destruct X | destruct X; discriminate]. Qed.

  Lemma flag_run : forall d s, runs true (nobody d) s -> inv (fun _ => True) flag_inv s.
  Proof.
    intros d s R. eapply inv_run; [apply flag_start | apply flag_step | apply inv_nobody; exact I | exact R].
  Qed.

  (* what is returned is installed *)
  Lemma returned_installed : forall d s p t,
    runs true (nobody d) s -> returned s p t (Ok tt) -> installed (target (disk s)) = true.
  Proof.
    intros d s p t R (q & E & C). destruct (flag_run _ _ R) as (_ & _ & _ & P).
    destruct (P _ _ E) as (F1 & _ & _ & F4). apply F1. apply (F4 t). right. exact C.
  Qed.

  (* ... and stays so *)
  Definition settled (tg : option tree) (d : @fs B) : Prop := target d = tg /\ installed tg = true.
  Definition all_set (d : @fs B) (g : bool) (cs : nat -> PC) : Prop := g = true /\ flag_inv d g cs.

  Lemma settled_step : forall tg t d g l cs d' g' l' c',
    tst t (d, g, l, cs t) (d', g', l', c') -> lock_ok l cs -> settled tg d -> all_set d g cs ->
    settled tg d' /\ all_set d' g' (set_pc cs t c').
  Proof.
    intros tg t d g l cs d' g' l' c' H L (S1 & S2) (G & F).
    destruct (flag_step _ _ _ _ _ _ _ _ _ H L I F) as (_ & F').
    destruct F as (F1 & F2 & F3 & F4). specialize (F3 t).
    remember (cs t) as c eqn:Ec. subst g.
    inversion H; subst; known cs t; try (split; [split; [reflexivity | assumption] | split; [reflexivity | assumption]]).
    all: exfalso; discriminate (F3 I).
  Qed.

  Lemma returned_stays : forall d s p t s',
    runs true (nobody d) s -> returned s p t (Ok tt) -> runs true s s' -> target (disk s') = target (disk s).
  Proof.
    intros d s p t s' R Ret R'.
    assert (I0 := returned_installed _ _ _ _ R Ret). destruct (flag_run _ _ R) as (A & L & _ & P).
    destruct Ret as (q & E & C).
    assert (X : inv (settled (target (disk s))) all_set s).
    { split; [exact A | split; [exact L | split; [split; [reflexivity | exact I0] |]]].
      intros p' q' E'. assert (p' = p) by (eapply A; eassumption). subst p'. assert (q' = q) by congruence. subst q'.
      split; [| exact (P _ _ E)]. destruct (P _ _ E) as (_ & _ & _ & F4). apply (F4 t). right. exact C. }
    eapply inv_run in X; [destruct X as (_ & _ & (X & _) & _); exact X | | apply settled_step | exact R'].
    intros d' (S1 & S2). split; [rewrite S1; exact S2 | apply flag_start; exact I].
  Qed.

  (* nothing but archives with the expected hash is unpacked *)
  Definition from_good (tr : tree) : Prop := exists b, good b = true /\ unzip b = Some tr.
  Definition ready (d : @fs B) (c : PC) : Prop :=
    match c with
    | Unzip => exists b, archive d = Some b /\ good b = true
    | Clear b | Tmp b | Extract b => good b = true
    | Move tr | Copy tr => from_good tr
    | _ => True
    end.
  Definition ready_inv (d : @fs B) (g : bool) (cs : nat -> PC) : Prop := forall t, ready d (cs t).

  Lemma genuine_removed : forall d0 d d', genuine good unzip zip_dir d0 d -> removed d d' -> genuine good unzip zip_dir d0 d'.
  Proof.
    intros d0 d d' G [->|(t & t' & -> & -> & P)] u p x E X; [discriminate |].
    injection E as <-. destruct (P p) as [Y|Y]; [| congruence]. rewrite Y in X. exact (G _ _ _ eq_refl X).
  Qed.

  Lemma ready_step : forall d0 t d g l cs d' g' l' c',
    tst t (d, g, l, cs t) (d', g', l', c') -> lock_ok l cs -> genuine good unzip zip_dir d0 (target d) -> ready_inv d g cs ->
    genuine good unzip zip_dir d0 (target d') /\ ready_inv d' g' (set_pc cs t c').
  Proof.
    intros d0 t d g l cs d' g' l' c' H L G Rd.
    remember (cs t) as c eqn:Ec. assert (Rt := Rd t). rewrite <- Ec in Rt.
    assert (Ex : forall t', t' <> t -> holds_lock c -> ~ holds_lock (cs t')).
    { intros t' N Hc Hx. rewrite Ec in Hc. apply L in Hc. apply L in Hx. congruence. }
    assert (K : forall d1 c0, archive d1 = archive d \/ holds_lock c -> ready d1 c0 -> ready_inv d1 g' (set_pc cs t c0)).
    { intros d1 c0 A R0 t'. destruct (Nat.eq_dec t' t) as [->|N]; [rewrite set_pc_eq; exact R0 | rewrite set_pc_neq by exact N].
      specialize (Rd t'). destruct A as [A|A].
      - destruct (cs t'); cbn in *; auto. rewrite A. exact Rd.
      - specialize (Ex t' N A). destruct (cs t'); cbn in *; auto. exfalso. apply Ex. exact I. }
    inversion H; subst; known cs t; cbn [ready] in *.
    all: try (split; [exact G | apply K; [left; reflexivity | exact I || assumption]]).
    all: try (split; [exact G | apply K; [left; reflexivity | eexists; split; eassumption]]).
    - split; [exact G | apply K; [right; exact I | exact I]].
    - split; [exact G | apply K; [right; exact I | exact I]].
    - split; [exact G | apply K; [left; reflexivity |]]. destruct Rt as (b' & A & Gb). cbn. congruence.
    - split; [eapply genuine_removed; eassumption | apply K; [left; reflexivity | assumption]].
    - (* rename *) split; [| apply K; [left; reflexivity | exact I]].
      destruct Rt as (b & Gb & U). intros u p x E X. injection E as <-. right. exists b, tr, p. auto.
    - (* copy starts *) split; [| apply K; [left; reflexivity | assumption]].
      intros u p x E X. injection E as <-. discriminate.
    - (* copy *) split; [| apply K; [left; reflexivity | assumption]].
      destruct Rt as (b & Gb & U). intros u p x E X. injection E as <-.
      match goal with Hd : forall p, _ \/ _ |- _ => destruct (Hd p) as [Y|Y] end.
      + rewrite Y in X. match goal with Ht : target ?z = Some _ |- _ => exact (G _ _ _ Ht X) end.
      + right. exists b, tr, p. rewrite <- Y. auto.
    - (* nested *) split; [| apply K; [left; reflexivity | exact I]].
      destruct Rt as (b & Gb & U). intros u p x E X. injection E as <-. unfold nested in X.
      destruct p as [|a rest]; [match goal with Ht : target _ = Some _ |- _ => exact (G _ _ _ Ht X) end |].
      destruct (String.eqb_spec a zip_dir) as [->|N]; [| match goal with Ht : target _ = Some _ |- _ => exact (G _ _ _ Ht X) end].
      right. exists b, tr, rest. auto.
  Qed.

  Lemma genuine_lemma : forall d s, runs true (nobody d) s -> genuine good unzip zip_dir (target d) (target (disk s)).
  Proof.
    intros d s R.
    assert (X : inv (fun f => genuine good unzip zip_dir (target d) (target f)) ready_inv s).
    { eapply inv_run; [| intros; eapply ready_step; eassumption | apply inv_nobody | exact R].
      - intros d' _ t. exact I.
      - intros t p x E X. left. exists t. split; assumption. }
    exact (proj1 (proj2 (proj2 X))).
  Qed.

  (* one file system *)
  Definition whole (d0 d : option tree) : Prop := installed d = true -> complete good unzip d \/ d = d0.
  Definition rename_inv (d : @fs B) (g : bool) (cs : nat -> PC) : Prop :=
    ready_inv d g cs /\ flag_inv d g cs /\ (forall t tr, cs t <> Copy tr) /\
    (g = false -> (forall t, cs t <> Check /\ cs t <> SetFlag) -> installed (target d) = false).

  Lemma rename_step : same_fs = true -> honest_check installed zip_dir ->
    forall d0 t d g l cs d' g' l' c',
    tst t (d, g, l, cs t) (d', g', l', c') -> lock_ok l cs -> whole d0 (target d) -> rename_inv d g cs ->
    whole d0 (target d') /\ rename_inv d' g' (set_pc cs t c').
  Proof.
    intros SF (H1 & H2 & H3) d0 t d g l cs d' g' l' c' H L W (R & F & NC & Z).
    destruct (flag_step _ _ _ _ _ _ _ _ _ H L I F) as (_ & F').
    assert (R' : ready_inv d' g' (set_pc cs t c')).
    { refine (proj2 (ready_step (target d) _ _ _ _ _ _ _ _ _ H L _ R)). intros u p x E X. left. exists u. auto. }
    remember (cs t) as c eqn:Ec.
    assert (Ex : forall t', t' <> t -> holds_lock c -> ~ holds_lock (cs t')).
    { intros t' N Hc Hx. rewrite Ec in Hc. apply L in Hc. apply L in Hx. congruence. }
    assert (Zc : installing c -> c <> Check -> c <> SetFlag -> installed (target d) = false).
    { intros Ic N1 N2. destruct F as (_ & _ & F3 & _). apply Z; [apply (F3 t); rewrite <- Ec; exact Ic |].
      intro t'. destruct (Nat.eq_dec t' t) as [->|N]; [rewrite <- Ec; auto |].
      specialize (Ex t' N (installing_holds _ Ic)). split; intro X; apply Ex; rewrite X; exact I. }
    assert (Pc : installing c -> c <> Check -> c <> SetFlag -> installed (target d') = false -> (forall tr, c' <> Copy tr) ->
                 whole d0 (target d') /\ rename_inv d' g' (set_pc cs t c')).
    { intros Ic N1 N2 Id Nc. split; [intro X; congruence |]. split; [exact R' | split; [exact F' | split]].
      - intros t' tr. destruct (Nat.eq_dec t' t) as [->|N]; [rewrite set_pc_eq; apply Nc | rewrite set_pc_neq by exact N; apply NC].
      - intros _ _. exact Id. }
    (* neither the directory nor the flag changes, and Check, SetFlag are neither entered nor left *)
    assert (K : target d' = target d -> g' = g -> (forall tr, c' <> Copy tr) ->
                (c = Check \/ c = SetFlag -> c' = Check \/ c' = SetFlag \/ installed (target d) = false) ->
                whole d0 (target d') /\ rename_inv d' g' (set_pc cs t c')).
    { intros Et Eg Nc Hc. split; [rewrite Et; exact W |]. split; [exact R' | split; [exact F' | split]].
      - intros t' tr. destruct (Nat.eq_dec t' t) as [->|N]; [rewrite set_pc_eq; apply Nc | rewrite set_pc_neq by exact N; apply NC].
      - intros Gf Hx. rewrite Et.
        apply Bool.not_true_is_false. intro Iq. enough (installed (target d) = false) by congruence.
        apply Z; [congruence |]. intro t'. destruct (Nat.eq_dec t' t) as [->|N].
        + rewrite <- Ec. specialize (Hx t). rewrite set_pc_eq in Hx. destruct Hx as (X1 & X2).
          split; intro Y; destruct Hc as [U|[U|U]]; try (left; exact Y); try (right; exact Y); congruence.
        + specialize (Hx t'). rewrite set_pc_neq in Hx by exact N. exact Hx. }
    inversion H; subst; known cs t.
    all: try (apply K; [reflexivity | reflexivity | discriminate | intros [Y|Y]; discriminate]).
    - (* clear *)
      apply Pc; try exact I; try discriminate. cbn.
      assert (F0 : installed (target d) = false) by (apply Zc; try exact I; discriminate).
      match goal with Hr : removed _ _ |- _ => destruct Hr as [->|(u & u' & E & -> & P)] end; [exact H1 |].
      rewrite E in F0. destruct (installed (Some u')) eqn:Iu; [| reflexivity]. rewrite (H2 _ _ P Iu) in F0. discriminate.
    - (* rename *)
      split.
      + intros _. left. assert (Rt := R t). rewrite <- Ec in Rt. destruct Rt as (b & Gb & U). exists b, tr. auto.
      + split; [exact R' | split; [exact F' | split]].
        * intros t' tr'. destruct (Nat.eq_dec t' t) as [->|N]; [rewrite set_pc_eq; discriminate | rewrite set_pc_neq by exact N; apply NC].
        * intros _ Hx. specialize (Hx t). rewrite set_pc_eq in Hx. destruct Hx as (X & _). contradiction.
    - congruence.
    - exfalso. exact (NC t tr (eq_sym Ec)).
    - (* nested *)
      apply Pc; try exact I; try discriminate. cbn.
      rewrite H3. match goal with Ht : target _ = Some _ |- _ => rewrite <- Ht end. apply Zc; try exact I; discriminate.
    - apply K; [reflexivity | reflexivity | discriminate | auto].
    - apply K; [reflexivity | reflexivity | discriminate | auto].
    - (* set *)
      split; [exact W |]. split; [exact R' | split; [exact F' | split]].
      + intros t' tr'. destruct (Nat.eq_dec t' t) as [->|N]; [rewrite set_pc_eq; discriminate | rewrite set_pc_neq by exact N; apply NC].
      + discriminate.
  Qed.

  Lemma whole_lemma : same_fs = true -> honest_check installed zip_dir -> forall d s,
    runs true (nobody d) s -> installed (target (disk s)) = true -> complete good unzip (target (disk s)) \/ target (disk s) = target d.
  Proof.
    intros SF HC d s R.
    assert (X : inv (fun f => whole (target d) (target f)) rename_inv s).
    { eapply inv_run; [| apply (rename_step SF HC (target d)) | apply inv_nobody | exact R].
      - intros d' _. split; [intro t; exact I | split; [apply flag_start; exact I | split; [discriminate | tauto]]].
      - intros _. right. reflexivity. }
    exact (proj1 (proj2 (proj2 X))).
  Qed.

  (* no archive with the expected hash is ever delivered *)
  Definition past (c : PC) : Prop :=
    match c with Unzip | Clear _ | Tmp _ | Extract _ | Move _ | Copy _ | Check | SetFlag => True | _ => False end.
  Definition bad_inv (d0 : option tree) (s : @state B) : Prop :=
    target (disk s) = d0 /\ forall p q, procs s p = Some q ->
      flag q = installed d0 /\ forall t, ~ past (pcs q t) /\
        (pcs q t = Release (Ok tt) \/ pcs q t = Done (Ok tt) -> installed d0 = true).
  Lemma bad_lemma : (forall b, good b = false) -> forall solo d s, runs solo (nobody d) s -> bad_inv (target d) s.
  Proof.
    intros Bad solo d s R. induction R as [|s1 s2 R (T & P) St].
    - split; [reflexivity |]. intros p q E. discriminate.
    - inversion St as [p N A | p q E | p q t f' g' l' c' E Ts]; subst s2.
      + split; [exact T |]. intros p' q' E'. destruct (Nat.eq_dec p' p) as [->|N']; [| rewrite set_proc_neq in E' by exact N'; exact (P _ _ E')].
        rewrite set_proc_eq in E'. injection E' as <-. cbn. rewrite T. split; [reflexivity |].
        intro t. split; [tauto | intros [X|X]; discriminate].
      + split; [exact T |]. intros p' q' E'. destruct (Nat.eq_dec p' p) as [->|N']; [rewrite set_proc_eq in E'; discriminate |].
        rewrite set_proc_neq in E' by exact N'. exact (P _ _ E').
      + destruct (P _ _ E) as (Fl & Pt). destruct (Pt t) as (Np & Ok0).
        assert (X : target f' = target d /\ g' = installed (target d) /\ ~ past c' /\
                    (c' = Release (Ok tt) \/ c' = Done (Ok tt) -> installed (target d) = true)).
        { remember (pcs q t) as c eqn:Ec. rewrite Fl in Ts.
          inversion Ts; subst; known (pcs q) t; try (exfalso; apply Np; exact I); cbn [past].
          all: try (match goal with Hb : good ?b = true |- _ => rewrite Bad in Hb; discriminate end).
          all: split; [exact T |]; split; [reflexivity || congruence |]; split; [tauto |]; intros [Y|Y]; try discriminate Y.
          all: try congruence.
          injection Y as ->. apply Ok0. left. reflexivity. }
        destruct X as (X1 & X2 & X3 & X4).
        split; [exact X1 |]. intros p' q' E'. destruct (Nat.eq_dec p' p) as [->|N']; [| rewrite set_proc_neq in E' by exact N'; exact (P _ _ E')].
        rewrite set_proc_eq in E'. injection E' as <-. cbn [flag pcs]. split; [exact X2 |].
        intro t'. destruct (Nat.eq_dec t' t) as [->|Nt]; [rewrite set_pc_eq; auto | rewrite set_pc_neq by exact Nt; apply Pt].
  Qed.

  (* another start after a stop *)
  Lemma run_trans : forall solo s1 s2 s3, runs solo s1 s2 -> runs solo s2 s3 -> runs solo s1 s3.
  Proof. intros solo s1 s2 s3 R1 R2. induction R2; [exact R1 | eapply run_step; eassumption]. Qed.
End P.
