From Coq Require Import Reals Lra.
From Coq Require Import String Ascii.
From Verif Require Import Prelude CRing CplxR DaskPredictModel BeamModel BeamSpec BeamProofs BeamProofs2 BeamProofs3 FitterModel FitterSpec FitterProofs FitBeamModel FitBeamSpec FitBeamProofs.
Open Scope list_scope.
Open Scope R_scope.

Lemma kind_file name corr part : (forall t, In t (hand1 ++ hand2 ++ parts) -> ~ occurs t name) -> In part parts ->
  kind_of (beam_file name corr part) =
  (if any_of hand1 corr then (if (contains "re" corr || String.eqb part "re")%bool then K1re else K1im)
   else if any_of hand2 corr then (if (contains "re" corr || String.eqb part "re")%bool then K2re else K2im) else Kskip).
Proof.
  intros N P. unfold kind_of, beam_file.
  assert (T : forall subs, incl subs (hand1 ++ hand2 ++ parts) -> any_of subs (name ++ "_" ++ corr ++ "_" ++ part ++ ".fits")%string = (any_of subs corr || any_of subs (part ++ ".fits"))%bool).
  { intros subs I. rewrite any_join by (intros t J; apply tags_ok, I, J). rewrite (proj2 (any_false subs name)) by (intros t J; apply N, I, J). cbn [orb]. apply any_join. intros t J. apply tags_ok, I, J. }
  assert (ONE : forall t, In t parts -> contains t (name ++ "_" ++ corr ++ "_" ++ part ++ ".fits")%string = (contains t corr || contains t (part ++ ".fits"))%bool).
  { intros t I. assert (J : incl [t] (hand1 ++ hand2 ++ parts)) by (intros u [<-|[]]; apply in_or_app; right; apply in_or_app; now right). specialize (T [t] J). unfold any_of in T. cbn [existsb] in T. now rewrite !orb_false_r in T. }
  rewrite !T by (intros u J; rewrite ?in_app_iff; tauto). rewrite !ONE by (cbn; tauto).
  destruct P as [<-|[<-|[]]].
  - replace (any_of hand1 ("re" ++ ".fits")) with false by reflexivity. replace (any_of hand2 ("re" ++ ".fits")) with false by reflexivity. replace (contains "re" ("re" ++ ".fits")) with true by reflexivity.
    replace (String.eqb "re" "re") with true by reflexivity. rewrite !orb_false_r, !orb_true_r. reflexivity.
  - replace (any_of hand1 ("im" ++ ".fits")) with false by reflexivity. replace (any_of hand2 ("im" ++ ".fits")) with false by reflexivity. replace (contains "re" ("im" ++ ".fits")) with false by reflexivity.
    replace (contains "im" ("im" ++ ".fits")) with true by reflexivity. replace (String.eqb "im" "re") with false by reflexivity. rewrite !orb_false_r, !orb_true_r. reflexivity.
Qed.
Lemma files_main disk name paths h1 h2 : In (h1, h2) hands -> (forall t, In t (hand1 ++ hand2 ++ parts) -> ~ occurs t name) ->
  (forall p, In p paths -> exists corr part, p = beam_file name corr part /\ In part parts /\ (corr = h1 \/ corr = h2 \/ forall t, In t (hand1 ++ hand2) -> ~ occurs t corr)) ->
  (forall corr part, corr = h1 \/ corr = h2 -> In part parts -> In (beam_file name corr part) paths) ->
  loads disk paths (fst (disk (beam_file name h1 "re"))) (snd (disk (beam_file name h1 "re"))) (snd (disk (beam_file name h1 "im"))) (snd (disk (beam_file name h2 "re"))) (snd (disk (beam_file name h2 "im"))).
Proof.
  intros H N A F.
  assert (H1 : any_of hand1 h1 = true /\ contains "re" h1 = false /\ any_of hand1 h2 = false /\ any_of hand2 h2 = true /\ contains "re" h2 = false).
  { cbn in H. repeat (destruct H as [H|H]; [injection H as <- <-; repeat split; reflexivity|]). destruct H. }
  destruct H1 as (Q1 & Q2 & Q3 & Q4 & Q5).
  assert (KS : forall p, In p paths -> exists corr part, p = beam_file name corr part /\ In part parts /\ ((corr = h1 /\ kind_of p = if String.eqb part "re" then K1re else K1im) \/ (corr = h2 /\ kind_of p = if String.eqb part "re" then K2re else K2im) \/ kind_of p = Kskip)).
  { intros p I. destruct (A p I) as (corr & part & -> & P & C). exists corr, part. split; [reflexivity|]. split; [exact P|]. rewrite (kind_file name corr part N P).
    destruct C as [->|[->|C]].
    - left. rewrite Q1, Q2. split; reflexivity.
    - right. left. rewrite Q3, Q4, Q5. split; reflexivity.
    - right. right. rewrite (proj2 (any_false hand1 corr)) by (intros t J; apply C, in_or_app; now left). rewrite (proj2 (any_false hand2 corr)) by (intros t J; apply C, in_or_app; now right). reflexivity. }
  assert (KF : forall c q, In q parts -> kind_of (beam_file name c q) = _) by (intros c q I; exact (kind_file name c q N I)).
  destruct (load_all_kinds disk (beam_file name h1 "re") (beam_file name h1 "im") (beam_file name h2 "re") (beam_file name h2 "im") paths) with (st := unassigned) as (st & E & A1 & A2 & A3 & A4).
  1: { intros p I. destruct (KS p I) as (corr & part & _ & P & C). destruct P as [<-|[<-|[]]]; cbn [String.eqb Ascii.eqb Bool.eqb] in C; destruct C as [[_ C]|[[_ C]|C]]; rewrite C; discriminate. }
  1-4: intros p I K; destruct (KS p I) as (corr & part & -> & P & C); rewrite K in C; destruct P as [<-|[<-|[]]]; cbn [String.eqb Ascii.eqb Bool.eqb] in C; destruct C as [[-> C]|[[-> C]|C]]; try discriminate; reflexivity.
  assert (PR : In "re"%string parts /\ In "im"%string parts) by (cbn; tauto). destruct PR as [PR PI].
  unfold loads. rewrite E. f_equal. cbn [unassigned c1_re c1_im c2_re c2_im l_hdr] in *.
  destruct A1 as [[X1 Y1]|(_ & _ & B)]; [|exfalso; apply (B _ (F h1 "re"%string (or_introl eq_refl) PR)); rewrite KF, Q1, Q2 by exact PR; reflexivity].
  destruct A2 as [X2|[_ B]]; [|exfalso; apply (B _ (F h1 "im"%string (or_introl eq_refl) PI)); rewrite KF, Q1, Q2 by exact PI; reflexivity].
  destruct A3 as [X3|[_ B]]; [|exfalso; apply (B _ (F h2 "re"%string (or_intror eq_refl) PR)); rewrite KF, Q3, Q4, Q5 by exact PR; reflexivity].
  destruct A4 as [X4|[_ B]]; [|exfalso; apply (B _ (F h2 "im"%string (or_intror eq_refl) PI)); rewrite KF, Q3, Q4, Q5 by exact PI; reflexivity].
  destruct st as [s1 s2 s3 s4 s5]. cbn [c1_re c1_im c2_re c2_im l_hdr] in *. subst. reflexivity.
Qed.

(* letters in the directory *)
Lemma occurs_app t a b : occurs t a -> occurs t (a ++ b)%string.
Proof. intros (x & y & ->). exists x, (y ++ b)%string. now rewrite !str_app_assoc. Qed.
Lemma load_keeps_im disk ps : (forall p, In p ps -> contains "re" p = true) -> forall st, exists st', load_all disk ps st = Ok st' /\ c1_im st' = c1_im st.
Proof.
  induction ps as [|p ps IH]; intros H st; [exists st; split; reflexivity|]. cbn [load_all]. unfold load_one. rewrite (H p (or_introl eq_refl)).
  specialize (IH (fun q I => H q (or_intror I))). destruct (any_of _ p); [|destruct (any_of _ p)]; cbn [bind]; match goal with |- exists st', load_all _ _ ?s = _ /\ _ => destruct (IH s) as (st' & E & C) end; exists st'; split; assumption.
Qed.
Lemma load_keeps_2 disk ps : (forall p, In p ps -> any_of hand1 p = true) -> forall st st', load_all disk ps st = Ok st' -> c2_re st' = c2_re st.
Proof.
  induction ps as [|p ps IH]; intros H st st' E; cbn [load_all] in E; [now injection E as ->|]. unfold load_one in E. fold hand1 in E. rewrite (H p (or_introl eq_refl)) in E.
  specialize (IH (fun q I => H q (or_intror I))). destruct (contains "re" p); [|destruct (contains "im" p); [|discriminate]]; cbn [bind] in E; apply IH in E; rewrite E; reflexivity.
Qed.
Lemma directory_main name paths disk h nband mask freqs : (forall p, In p paths -> exists s, p = (name ++ s)%string) ->
  (occurs "re" name -> name <> "eidos"%string -> interpolate_beam name paths disk h nband mask freqs = Raise NameError) /\
  ((exists t, In t hand1 /\ occurs t name) -> forall out, interpolate_beam name paths disk h nband mask freqs <> Ok out).
Proof.
  intros P. unfold interpolate_beam. split.
  - intros O E. destruct (String.eqb_spec name "eidos") as [|_]; [contradiction|].
    destruct (load_keeps_im disk paths) with (st := unassigned) as (st & L & C).
    { intros p I. destruct (P p I) as [s ->]. apply contains_spec, occurs_app, O. }
    rewrite L. cbn [bind]. unfold beam_amp. rewrite C. cbn [unassigned c1_im]. destruct (c1_re st); reflexivity.
  - intros (t & I & O) out. destruct (String.eqb name "eidos"); [discriminate|].
    destruct (load_all disk paths unassigned) as [st|e] eqn:L; [|discriminate]. cbn [bind].
    apply load_keeps_2 in L; [|intros p J; destruct (P p J) as [s ->]; apply existsb_exists; exists t; split; [exact I|]; apply contains_spec, occurs_app, O].
    unfold beam_amp. rewrite L. cbn [unassigned c2_re]. destruct (c1_re st), (c1_im st); discriminate.
Qed.
