(* Proofs about the installation of header libraries: what goes wrong. *)
From Coq Require Import String Lia.
From Verif Require Import Prelude InstallModel InstallSpec InstallProofs InstallProofs2.
Open Scope nat_scope.
Open Scope list_scope.

Section P.
  Context {B : Type}.
  Variables (good : B -> bool) (unzip : B -> option tree) (installed : option tree -> bool) (zip_dir : string).

  Lemma part_empty : forall t : tree, part_of (fun _ => None) t.
  Proof. intros t p. right. reflexivity. Qed.

  (* up to the lock *)
  Lemma to_look : forall same_fs t d, tsteps good unzip installed zip_dir same_fs t (d, false, None, Idle) (d, false, Some t, Look).
  Proof.
    intros. eapply ts_step; [apply t_call |]. eapply ts_step; [apply t_outer_no |]. eapply ts_step; [apply t_acquire |].
    eapply ts_step; [apply t_inner_no |]. apply ts_none.
  Qed.
  Lemma to_open : forall same_fs t d, archive d = None ->
    tsteps good unzip installed zip_dir same_fs t (d, false, None, Idle) (d, false, Some t, Open).
  Proof.
    intros same_fs t d A. eapply tsteps_trans; [apply to_look |].
    eapply ts_step; [apply t_look_miss; intros b E; congruence | apply ts_none].
  Qed.
  Lemma download : forall same_fs t d b, good b = true ->
    tsteps good unzip installed zip_dir same_fs t (d, false, Some t, Open) (set_archive d b, false, Some t, Unzip).
  Proof.
    intros same_fs t d b G. eapply ts_step; [apply (t_open _ _ _ _ _ t d _ _ b) |]. eapply ts_step; [apply t_write_end |].
    eapply ts_step; [eapply t_hash_ok; [reflexivity | exact G] |]. apply ts_none.
  Qed.

  (* stopped while files are copied *)
  Lemma interrupted_lemma : forall b tr tr' d,
    good b = true -> unzip b = Some tr -> part_of tr' tr -> installed (Some tr') = true -> installed (target d) = false ->
    archive d = None ->
    exists s, run good unzip installed zip_dir false true (nobody d) s /\ returned s 1 0 (Ok tt) /\ target (disk s) = Some tr'.
  Proof.
    intros b tr tr' d G U P I I0 A0.
    destruct (begin good unzip installed zip_dir false true (nobody d) 0 eq_refl (fun _ _ => eq_refl)) as (s1 & R1 & A1 & O1).
    specialize (A1 0). cbn [disk nobody] in A1. rewrite I0 in A1.
    destruct (go good unzip installed zip_dir false true s1 0 0 _
      ({| archive := Some b; target := Some tr' |}, false, Some 0, Copy tr) A1) as (s2 & R2 & A2 & O2).
    { eapply tsteps_trans; [apply to_open; exact A0 |]. eapply tsteps_trans; [apply download; exact G |].
      eapply ts_step; [apply t_unzip; reflexivity |].
      eapply ts_step; [apply t_clear with (d := None); left; reflexivity |].
      eapply ts_step; [apply t_clear_end |].
      eapply ts_step; [apply t_tmp |].
      eapply ts_step; [apply t_extract; exact U |].
      eapply ts_step; [apply t_copy_start; reflexivity |].
      eapply ts_step; [eapply t_copy with (d' := tr'); [reflexivity |] |].
      - intro p. destruct (P p) as [E|E]; [right; exact E | left; rewrite E; reflexivity].
      - apply ts_none. }
    destruct (stop good unzip installed zip_dir false true s2 0 0 _ A2) as (s3 & R3 & D3 & N3 & O3).
    assert (Z : forall p, procs s3 p = None).
    { intro p. destruct (Nat.eq_dec p 0) as [->|N]; [exact N3 |]. rewrite (O3 p N), (O2 p N), (O1 p N). reflexivity. }
    destruct (begin good unzip installed zip_dir false true s3 1 (Z 1) (fun _ => Z)) as (s4 & R4 & A4 & _).
    specialize (A4 0). destruct A2 as (D2 & _). rewrite D3, D2 in A4. cbn [target] in A4. rewrite I in A4.
    destruct (go good unzip installed zip_dir false true s4 1 0 _
      ({| archive := Some b; target := Some tr' |}, true, None, Done (Ok tt)) A4) as (s5 & R5 & A5 & _).
    { eapply ts_step; [apply t_call |]. eapply ts_step; [apply t_outer_yes |]. apply ts_none. }
    exists s5. split; [| split].
    - eapply run_trans; [exact R1 |]. eapply run_trans; [exact R2 |]. eapply run_trans; [exact R3 |].
      eapply run_trans; [exact R4 | exact R5].
    - exact (at_returned _ _ _ _ _ _ _ A5).
    - destruct A5 as (-> & _). reflexivity.
  Qed.

  (* mkdtemp fails *)
  Lemma mkdtemp_lemma : forall same_fs b d, good b = true -> installed (target d) = false -> archive d = None ->
    exists s, run good unzip installed zip_dir same_fs true (nobody d) s /\ returned s 0 0 (Raise NameError).
  Proof.
    intros same_fs b d G I0 A0.
    destruct (begin good unzip installed zip_dir same_fs true (nobody d) 0 eq_refl (fun _ _ => eq_refl)) as (s1 & R1 & A1 & O1).
    specialize (A1 0). cbn [disk nobody] in A1. rewrite I0 in A1.
    destruct (go good unzip installed zip_dir same_fs true s1 0 0 _ (set_archive d b, false, None, Done (Raise NameError)) A1)
      as (s2 & R2 & A2 & O2).
    { eapply tsteps_trans; [apply to_open; exact A0 |]. eapply tsteps_trans; [apply download; exact G |].
      eapply ts_step; [apply t_unzip; reflexivity |]. eapply ts_step; [apply t_clear_end |].
      eapply ts_step; [apply t_tmp_fails |]. eapply ts_step; [apply t_release |]. apply ts_none. }
    exists s2. split; [eapply run_trans; eassumption | exact (at_returned _ _ _ _ _ _ _ A2)].
  Qed.

  Lemma other_at : forall (s s' : @state B) p p' t x, p' <> p -> same_others s s' p -> disk s' = disk s ->
    at_ s p' t x -> at_ s' p' t x.
  Proof.
    intros s s' p p' t [[[d g] l] c] N O D (E & q & Q & H). split; [congruence |]. exists q. split; [| exact H].
    rewrite (O p' N). exact Q.
  Qed.
  (* another process has changed the disk *)
  Lemma other_at' : forall (s s' : @state B) p p' t d g l c, p' <> p -> same_others s s' p ->
    at_ s p' t (d, g, l, c) -> at_ s' p' t (disk s', g, l, c).
  Proof.
    intros s s' p p' t d g l c N O (E & q & Q & H). split; [reflexivity |]. exists q. split; [| exact H].
    rewrite (O p' N). exact Q.
  Qed.

  (* a second process removes what the first has returned *)
  Lemma two_removed_lemma : forall same_fs b tr d, good b = true -> unzip b = Some tr -> installed (Some tr) = true ->
    installed (target d) = false -> archive d = None ->
    exists s, run good unzip installed zip_dir same_fs false (nobody d) s /\ returned s 0 0 (Ok tt) /\ target (disk s) = None.
  Proof.
    intros same_fs b tr d G U I I0 A0.
    destruct (begin good unzip installed zip_dir same_fs false (nobody d) 0 eq_refl) as (s1 & R1 & A1 & O1); [discriminate |].
    assert (D1 : disk s1 = d) by (destruct (A1 0) as (E & _); exact E).
    destruct (begin good unzip installed zip_dir same_fs false s1 1) as (s2 & R2 & A2 & O2);
      [rewrite O1 by discriminate; reflexivity | discriminate |].
    assert (D2 : disk s2 = d) by (destruct (A2 0) as (E & _); rewrite E; exact D1).
    specialize (A1 0). specialize (A2 0). cbn [disk nobody] in A1. rewrite I0 in A1. rewrite D1, I0 in A2.
    assert (A1' := other_at s1 s2 1 0 0 _ (Nat.neq_0_succ 0) O2 (eq_trans D2 (eq_sym D1)) A1).
    (* the first process *)
    destruct (finish good unzip installed zip_dir same_fs 0 (set_archive d b) b tr eq_refl U I) as (d' & T & Td).
    destruct (go good unzip installed zip_dir same_fs false s2 0 0 _ (d', true, None, Done (Ok tt)) A1') as (s3 & R3 & A3 & O3).
    { eapply tsteps_trans; [apply to_open; exact A0 |]. eapply tsteps_trans; [apply download; exact G | exact T]. }
    (* the second *)
    assert (A2' := other_at' s2 s3 0 1 0 _ _ _ _ (Nat.neq_succ_0 0) O3 A2).
    assert (X : exists d2, tsteps good unzip installed zip_dir same_fs 0 (disk s3, false, None, Idle) (d2, false, Some 0, Unzip) /\
                           exists b', archive d2 = Some b').
    { destruct (archive (disk s3)) as [b'|] eqn:E; [destruct (good b') eqn:Gb |].
      - exists (disk s3). split; [| exists b'; exact E]. eapply tsteps_trans; [apply to_look |].
        eapply ts_step; [eapply t_look_hit; eassumption | apply ts_none].
      - exists (set_archive (disk s3) b). split; [| eexists; reflexivity]. eapply tsteps_trans; [apply to_look |].
        eapply ts_step; [apply t_look_miss; intros b1 E1; congruence | apply download; exact G].
      - exists (set_archive (disk s3) b). split; [| eexists; reflexivity]. eapply tsteps_trans; [apply to_open; exact E | apply download; exact G]. }
    destruct X as (d2 & T2 & b' & E2).
    destruct (go good unzip installed zip_dir same_fs false s3 1 0 _ (set_target d2 None, false, Some 0, Clear b') A2') as (s4 & R4 & A4 & O4).
    { eapply tsteps_trans; [exact T2 |]. eapply ts_step; [apply t_unzip; exact E2 |].
      eapply ts_step; [apply t_clear with (d := None); left; reflexivity |]. apply ts_none. }
    exists s4. split; [| split].
    - eapply run_trans; [exact R1 |]. eapply run_trans; [exact R2 |]. eapply run_trans; [exact R3 | exact R4].
    - assert (A3' := other_at' s3 s4 1 0 0 _ _ _ _ (Nat.neq_0_succ 0) O4 A3). exact (at_returned _ _ _ _ _ _ _ A3').
    - destruct A4 as (-> & _). reflexivity.
  Qed.

  (* a second process replaces the archive after the first has checked its hash *)
  Lemma two_unverified_lemma : forall same_fs b x tr d, good b = true -> unzip x = Some tr -> installed (Some tr) = true ->
    installed (target d) = false -> archive d = None ->
    exists s, run good unzip installed zip_dir same_fs false (nobody d) s /\ returned s 0 0 (Ok tt) /\ target (disk s) = Some tr.
  Proof.
    intros same_fs b x tr d G U I I0 A0.
    destruct (begin good unzip installed zip_dir same_fs false (nobody d) 0 eq_refl) as (s1 & R1 & A1 & O1); [discriminate |].
    assert (D1 : disk s1 = d) by (destruct (A1 0) as (E & _); exact E).
    destruct (begin good unzip installed zip_dir same_fs false s1 1) as (s2 & R2 & A2 & O2);
      [rewrite O1 by discriminate; reflexivity | discriminate |].
    assert (D2 : disk s2 = d) by (destruct (A2 0) as (E & _); rewrite E; exact D1).
    specialize (A1 0). specialize (A2 0). cbn [disk nobody] in A1. rewrite I0 in A1. rewrite D1, I0 in A2.
    assert (A1' := other_at s1 s2 1 0 0 _ (Nat.neq_0_succ 0) O2 (eq_trans D2 (eq_sym D1)) A1).
    (* the second process decides to download *)
    destruct (go good unzip installed zip_dir same_fs false s2 1 0 _ _ A2 (to_open same_fs 0 d A0)) as (s3 & R3 & A3 & O3).
    assert (D3 : disk s3 = d) by (destruct A3 as (E & _); exact E).
    assert (A1'' := other_at s2 s3 1 0 0 _ (Nat.neq_0_succ 0) O3 (eq_trans D3 (eq_sym D2)) A1').
    (* the first checks the hash *)
    destruct (go good unzip installed zip_dir same_fs false s3 0 0 _ _ A1''
      (tsteps_trans _ _ _ _ _ _ _ _ _ (to_open same_fs 0 d A0) (download same_fs 0 d b G))) as (s4 & R4 & A4 & O4).
    assert (A5 := other_at' s3 s4 0 1 0 _ _ _ _ (Nat.neq_succ_0 0) O4 A3).
    (* the second writes *)
    destruct (go good unzip installed zip_dir same_fs false s4 1 0 _ (set_archive (disk s4) x, false, Some 0, Write) A5) as (s5 & R5 & A6 & O5).
    { eapply ts_step; [apply (t_open _ _ _ _ _ 0 (disk s4) _ _ x) | apply ts_none]. }
    assert (A7 := other_at' s4 s5 1 0 0 _ _ _ _ (Nat.neq_0_succ 0) O5 A4).
    assert (D5 : archive (disk s5) = Some x) by (destruct A6 as (-> & _); reflexivity).
    destruct (finish good unzip installed zip_dir same_fs 0 (disk s5) x tr D5 U I) as (d' & T & Td).
    destruct (go good unzip installed zip_dir same_fs false s5 0 0 _ _ A7 T) as (s6 & R6 & A8 & O6).
    exists s6. split; [| split].
    - eapply run_trans; [exact R1 |]. eapply run_trans; [exact R2 |]. eapply run_trans; [exact R3 |].
      eapply run_trans; [exact R4 |]. eapply run_trans; [exact R5 | exact R6].
    - exact (at_returned _ _ _ _ _ _ _ A8).
    - destruct A8 as (-> & _). exact Td.
  Qed.
End P.

Lemma without_part : forall p0 t, part_of (without p0 t) t.
Proof. intros p0 t p. unfold without. destruct (path_eq p p0); auto. Qed.
Lemma without_eq : forall p0 t p, p <> p0 -> without p0 t p = t p.
Proof. intros p0 t p N. unfold without. destruct (path_eq p p0); [contradiction | reflexivity]. Qed.
Lemma without_cub : forall p0 t, p0 <> cub_header -> p0 <> readme ->
  is_cub_installed (Some (without p0 t)) = is_cub_installed (Some t).
Proof.
  intros p0 t N1 N2. unfold is_cub_installed, is_file, lines_of. rewrite !without_eq by congruence. reflexivity.
Qed.
Lemma without_trove : forall p0 t, p0 <> readme -> is_trove_installed (Some (without p0 t)) = is_trove_installed (Some t).
Proof. intros p0 t N. unfold is_trove_installed, is_file. rewrite without_eq by congruence. reflexivity. Qed.

Lemma present_lemma : forall B (good : B -> bool) unzip installed zip_dir same_fs solo d s, installed (target d) = true ->
  run good unzip installed zip_dir same_fs solo (nobody d) s -> disk s = d /\ forall p t r, returned s p t r -> r = Ok tt.
Proof.
  intros B good unzip installed zip_dir same_fs solo d s I R.
  assert (X : disk s = d /\ forall p q, procs s p = Some q -> flag q = true /\ forall t, pcs q t = Idle \/ pcs q t = Outer \/ pcs q t = Done (Ok tt)).
  { induction R as [|s1 s2 R (D & IH) St]; [split; [reflexivity | intros p q E; discriminate] |].
    inversion St as [p0 N A | p0 q0 A | p0 q0 t0 f' g' l' c' A T]; subst s2.
    - split; [exact D |]. intros p q E. destruct (Nat.eq_dec p p0) as [->|N']; [rewrite set_proc_eq in E | rewrite set_proc_neq in E by exact N'; exact (IH _ _ E)].
      injection E as <-. cbn. rewrite D. split; [exact I | intro t; left; reflexivity].
    - split; [exact D |]. intros p q E. destruct (Nat.eq_dec p p0) as [->|N']; [rewrite set_proc_eq in E; discriminate | rewrite set_proc_neq in E by exact N'; exact (IH _ _ E)].
    - destruct (IH _ _ A) as (Fl & Cs). rewrite Fl in T.
      assert (Y : f' = disk s1 /\ g' = true /\ (c' = Idle \/ c' = Outer \/ c' = Done (Ok tt))).
      { destruct (Cs t0) as [E|[E|E]]; rewrite E in T; inversion T; subst; auto. }
      destruct Y as (-> & -> & C'). split; [exact D |].
      intros p q E. destruct (Nat.eq_dec p p0) as [->|N']; [rewrite set_proc_eq in E | rewrite set_proc_neq in E by exact N'; exact (IH _ _ E)].
      injection E as <-. cbn. split; [reflexivity |]. intro t. unfold set_pc. destruct (Nat.eqb t t0); [exact C' | apply Cs]. }
  split; [exact (proj1 X) |]. intros p t r (q & E & C). destruct (proj2 X _ _ E) as (_ & Y).
  destruct (Y t) as [Z|[Z|Z]]; rewrite Z in C; congruence.
Qed.
Lemma prefix_app : forall s line, String.prefix s line = true <-> exists after, line = String.append s after.
Proof.
  induction s as [|c s IH]; intros line.
  - split; [intros _; exists line; reflexivity | intros _; destruct line; reflexivity].
  - destruct line as [|c' line]; simpl.
    + split; [discriminate | intros (x & X); discriminate].
    + destruct (Ascii.ascii_dec c c') as [<-|N].
      * rewrite IH. split; intros (x & X); exists x; [rewrite X; reflexivity | injection X as X; exact X].
      * split; [discriminate | intros (x & X); injection X as X _; congruence].
Qed.
Lemma contains_occurs : forall s line, contains s line = true <-> occurs s line.
Proof.
  intros s line. unfold occurs. induction line as [|c line IH].
  - change (contains s EmptyString) with (String.prefix s EmptyString || false)%bool. rewrite Bool.orb_false_r, prefix_app. split.
    + intros (x & X). exists EmptyString, x. exact X.
    + intros (b & x & X). destruct b; [exists x; exact X | discriminate].
  - change (contains s (String c line)) with (String.prefix s (String c line) || contains s line)%bool.
    rewrite Bool.orb_true_iff, prefix_app, IH. split.
    + intros [(x & X)|(b & x & X)]; [exists EmptyString, x; exact X |].
      exists (String c b), x. rewrite X. reflexivity.
    + intros (b & x & X). destruct b as [|c' b]; [left; exists x; exact X |].
      right. injection X as _ X. exists b, x. exact X.
Qed.
Lemma is_file_has : forall d p, is_file d p = true <-> exists l, has_file d p l.
Proof.
  intros d p. unfold is_file, has_file. destruct d as [t|]; [|split; [discriminate | intros (l & t & X & _); discriminate]].
  destruct (t p) as [l|] eqn:E; split; try discriminate.
  - intros _. exists l, t. split; [reflexivity | exact E].
  - reflexivity.
  - intros (l & t' & X & Y). injection X as <-. congruence.
Qed.
Lemma cub_check : forall d, is_cub_installed d = true <->
  (exists l, has_file d ["cub"; "cub.cuh"]%string l) /\
  (exists l line, has_file d ["README.md"]%string l /\ In line l /\ occurs "Current release: v1.8.0 (02/16/2018)" line).
Proof.
  intros d. unfold is_cub_installed. rewrite !Bool.andb_true_iff, existsb_exists, !is_file_has. split.
  - intros ((H1 & (l & t & E & E')) & (line & I & C)). split; [exact H1 |]. exists l, line.
    split; [exists t; auto |]. rewrite contains_occurs in C. split; [|exact C].
    unfold lines_of in I. rewrite E, E' in I. exact I.
  - intros (H1 & (l & line & (t & E & E') & I & C)). split; [split; [exact H1 | exists l, t; auto] |].
    exists line. split; [|apply contains_occurs; exact C]. unfold lines_of. rewrite E. unfold readme. rewrite E'. exact I.
Qed.
Lemma trove_check : forall d, is_trove_installed d = true <-> exists l, has_file d ["README.md"]%string l.
Proof. intros d. apply is_file_has. Qed.
