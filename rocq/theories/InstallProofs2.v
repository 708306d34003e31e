(* Proofs about the installation of header libraries: runs that exist. *)
From Coq Require Import String Lia.
From Verif Require Import Prelude InstallModel InstallSpec InstallProofs.
Open Scope nat_scope.
Open Scope list_scope.

Section P.
  Context {B : Type}.
  Variables (good : B -> bool) (unzip : B -> option tree) (installed : option tree -> bool) (zip_dir : string) (same_fs : bool).
  Notation tst := (tstep good unzip installed zip_dir same_fs).
  Notation runs := (run good unzip installed zip_dir same_fs).

  Inductive tsteps (t : nat) (x : @fs B * bool * option nat * @pc B) : @fs B * bool * option nat * @pc B -> Prop :=
  | ts_none : tsteps t x x
  | ts_step y z : tst t x y -> tsteps t y z -> tsteps t x z.

  (* thread t of process p is in this state, and what the others do is as in s *)
  Definition at_ (s : @state B) (p t : nat) (x : @fs B * bool * option nat * @pc B) : Prop :=
    match x with (d, g, l, c) => disk s = d /\ exists q, procs s p = Some q /\ flag q = g /\ lock q = l /\ pcs q t = c end.
  Definition same_others (s s' : @state B) (p : nat) : Prop := forall p', p' <> p -> procs s' p' = procs s p'.

  Lemma go : forall solo s p t x y, at_ s p t x -> tsteps t x y ->
    exists s', runs solo s s' /\ at_ s' p t y /\ same_others s s' p.
  Proof.
    intros solo s p t x y A T. revert s A. induction T as [x | x y z St T IH]; intros s A.
    - exists s. split; [apply run_none | split; [exact A | intros p' _; reflexivity]].
    - destruct x as [[[d g] l] c], y as [[[d' g'] l'] c']. destruct A as (D & q & E & F & L & C). subst.
      destruct (IH (set_proc s d' p (Some {| flag := g'; lock := l'; pcs := set_pc (pcs q) t c' |}))) as (s' & R & A & O).
      + split; [reflexivity |]. eexists. split; [apply set_proc_eq |]. cbn. repeat split. apply set_pc_eq.
      + exists s'. split; [| split; [exact A |]].
        * eapply run_trans; [| exact R]. eapply run_step; [apply run_none |]. apply s_thread; assumption.
        * intros p' N. rewrite (O p' N). apply set_proc_neq. exact N.
  Qed.

  Lemma begin : forall solo s p, procs s p = None -> (solo = true -> forall p', procs s p' = None) ->
    exists s', runs solo s s' /\ (forall t, at_ s' p t (disk s, installed (target (disk s)), None, Idle)) /\ same_others s s' p.
  Proof.
    intros solo s p N A. eexists. split; [| split].
    - eapply run_step; [apply run_none |]. apply (s_start _ _ _ _ _ solo s p N A).
    - intro t. split; [reflexivity |]. eexists. split; [apply set_proc_eq |]. cbn. auto.
    - intros p' N'. apply set_proc_neq. exact N'.
  Qed.

  Lemma stop : forall solo s p t x, at_ s p t x ->
    exists s', runs solo s s' /\ disk s' = disk s /\ procs s' p = None /\ same_others s s' p.
  Proof.
    intros solo s p t [[[d g] l] c] (D & q & E & _). eexists. split; [| split; [| split]].
    - eapply run_step; [apply run_none |]. eapply s_stop. exact E.
    - reflexivity.
    - apply set_proc_eq.
    - intros p' N'. apply set_proc_neq. exact N'.
  Qed.

  Lemma at_returned : forall s p t d g l r, at_ s p t (d, g, l, Done r) -> returned s p t r.
  Proof. intros s p t d g l r (_ & q & E & _ & _ & C). exists q. split; assumption. Qed.

  Lemma tsteps_trans : forall t x y z, tsteps t x y -> tsteps t y z -> tsteps t x z.
  Proof. intros t x y z H K. induction H as [|x y' y St H IH]; [exact K | eapply ts_step; [exact St | exact (IH K)]]. Qed.

  (* from an archive with the expected hash to the end *)
  Lemma finish : forall t d b tr, archive d = Some b -> unzip b = Some tr -> installed (Some tr) = true ->
    exists d', tsteps t (d, false, Some t, Unzip) (d', true, None, Done (Ok tt)) /\ target d' = Some tr.
  Proof.
    intros t d b tr A U I. exists {| archive := archive d; target := Some tr |}. split; [| reflexivity].
    eapply ts_step; [apply (t_unzip _ _ _ _ _ t d _ _ b A) |].
    eapply ts_step; [apply t_clear with (d := None); left; reflexivity |].
    eapply ts_step; [apply t_clear_end |].
    eapply ts_step; [apply t_tmp |].
    eapply ts_step; [apply t_extract; exact U |].
    assert (Rest : forall f, f = {| archive := archive d; target := Some tr |} ->
      tsteps t (f, false, Some t, Check) ({| archive := archive d; target := Some tr |}, true, None, Done (Ok tt))).
    { intros f ->. eapply ts_step; [apply t_check_ok; exact I |]. eapply ts_step; [apply t_set |].
      eapply ts_step; [apply t_release |]. apply ts_none. }
    destruct same_fs eqn:SF.
    - eapply ts_step; [apply t_rename; [reflexivity | exact SF] |]. apply Rest. reflexivity.
    - eapply ts_step; [apply t_copy_start; [reflexivity | exact SF] |].
      eapply ts_step; [eapply t_copy with (d' := tr); [reflexivity | right; reflexivity] |].
      eapply ts_step; [eapply t_copy_end; [reflexivity | intros; reflexivity] |]. apply Rest. reflexivity.
  Qed.

  Lemma recover_lemma :
    (exists b, good b = true) -> (forall b, good b = true -> exists tr, unzip b = Some tr /\ installed (Some tr) = true) ->
    forall s, nobody_runs s -> exists s', runs true s s' /\ returned s' 0 0 (Ok tt) /\
      (if installed (target (disk s)) then target (disk s') = target (disk s) else complete good unzip (target (disk s'))).
  Proof.
    intros (b & Gb) U s N.
    destruct (begin true s 0 (N 0) (fun _ => N)) as (s1 & R1 & A1 & _).
    specialize (A1 0). destruct (installed (target (disk s))) eqn:I.
    - destruct (go true s1 0 0 _ (disk s, true, None, Done (Ok tt)) A1) as (s2 & R2 & A2 & _).
      { eapply ts_step; [apply t_call |]. eapply ts_step; [apply t_outer_yes |]. apply ts_none. }
      exists s2. split; [eapply run_trans; eassumption | split; [exact (at_returned _ _ _ _ _ _ _ A2) |]].
      destruct A2 as (-> & _). reflexivity.
    - assert (X : exists d b', tsteps 0 (disk s, false, None, Idle) (d, false, Some 0, Unzip) /\ archive d = Some b' /\ good b' = true).
      { assert (Pre : tsteps 0 (disk s, false, None, Idle) (disk s, false, Some 0, Look)).
        { eapply ts_step; [apply t_call |]. eapply ts_step; [apply t_outer_no |]. eapply ts_step; [apply t_acquire |].
          eapply ts_step; [apply t_inner_no |]. apply ts_none. }
        destruct (archive (disk s)) as [b0|] eqn:A; [destruct (good b0) eqn:G0 |].
        - exists (disk s), b0. split; [| split; assumption]. eapply tsteps_trans; [exact Pre |].
          eapply ts_step; [eapply t_look_hit; eassumption |]. apply ts_none.
        - exists (set_archive (disk s) b), b. split; [| split; [reflexivity | exact Gb]]. eapply tsteps_trans; [exact Pre |].
          eapply ts_step; [apply t_look_miss; intros b1 E; congruence |].
          eapply ts_step; [apply (t_open _ _ _ _ _ 0 (disk s) _ _ b) |]. eapply ts_step; [apply t_write_end |].
          eapply ts_step; [eapply t_hash_ok; [reflexivity | exact Gb] |]. apply ts_none.
        - exists (set_archive (disk s) b), b. split; [| split; [reflexivity | exact Gb]]. eapply tsteps_trans; [exact Pre |].
          eapply ts_step; [apply t_look_miss; intros b1 E; congruence |].
          eapply ts_step; [apply (t_open _ _ _ _ _ 0 (disk s) _ _ b) |]. eapply ts_step; [apply t_write_end |].
          eapply ts_step; [eapply t_hash_ok; [reflexivity | exact Gb] |]. apply ts_none. }
      destruct X as (d & b' & T1 & A & G). destruct (U b' G) as (tr & Ub & It).
      destruct (finish 0 d b' tr A Ub It) as (d' & T2 & Td).
      destruct (go true s1 0 0 _ _ A1 (tsteps_trans _ _ _ _ T1 T2)) as (s2 & R2 & A2 & _).
      exists s2. split; [eapply run_trans; eassumption | split; [exact (at_returned _ _ _ _ _ _ _ A2) |]].
      destruct A2 as (-> & _). exists b', tr. auto.
  Qed.
End P.

(* the two checks *)
Lemma is_file_part : forall t t' p, part_of t' t -> is_file (Some t') p = true ->
  is_file (Some t) p = true /\ lines_of (Some t') p = lines_of (Some t) p.
Proof.
  intros t t' p P H. unfold is_file, lines_of in *. destruct (P p) as [E|E]; rewrite E in *; [| discriminate]. split; [exact H | reflexivity].
Qed.
Lemma cub_honest : honest_check is_cub_installed cub_zip_dir.
Proof.
  split; [reflexivity | split].
  - intros t t' P H. unfold is_cub_installed in *. apply andb_prop in H as (H & H3). apply andb_prop in H as (H1 & H2).
    destruct (is_file_part _ _ _ P H1) as (K1 & _). destruct (is_file_part _ _ _ P H2) as (K2 & E2).
    rewrite K1, K2. rewrite <- E2. rewrite H3. reflexivity.
  - intros t tr. reflexivity.
Qed.
Lemma trove_honest : honest_check is_trove_installed trove_zip_dir.
Proof.
  split; [reflexivity | split].
  - intros t t' P H. exact (proj1 (is_file_part _ _ _ P H)).
  - intros t tr. reflexivity.
Qed.
