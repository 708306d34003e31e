From Coq Require Import Reals Lra.
From Coq Require Import String Ascii.
From Verif Require Import Prelude CRing CplxR BeamModel BeamSpec BeamProofs BeamProofs2 BeamProofs3 FitterModel FitterSpec FitterProofs FitBeamModel FitBeamSpec.
Open Scope list_scope.
Open Scope R_scope.

(* ---- names of files ---- *)
Lemma str_app_assoc (a b c : string) : ((a ++ b) ++ c = a ++ (b ++ c))%string.
Proof. induction a as [|x a IH]; [reflexivity|]. cbn. now rewrite IH. Qed.
Lemma prefix_occurs sub s : String.prefix sub s = true <-> exists b, s = (sub ++ b)%string.
Proof.
  revert s. induction sub as [|x sub IH]; intros s; cbn [String.prefix].
  - split; [exists s; reflexivity|destruct s; reflexivity].
  - destruct s as [|y s]; [split; [discriminate|intros [b E]; discriminate]|]. cbn [String.prefix]. destruct (Ascii.ascii_dec x y) as [->|N].
    + rewrite IH. split; intros [b E]; exists b; [now rewrite E|now injection E as ->].
    + split; [discriminate|]. intros [b E]. injection E as E1 E2. congruence.
Qed.
Lemma contains_spec sub s : contains sub s = true <-> occurs sub s.
Proof.
  induction s as [|y s IH]; cbn [contains].
  - rewrite orb_false_r, prefix_occurs. split; [intros [b E]; exists ""%string, b; exact E|]. intros (a & b & E). destruct a; [exists b; exact E|discriminate].
  - rewrite orb_true_iff, prefix_occurs, IH. split.
    + intros [[b E]|(a & b & E)]; [exists ""%string, b; exact E|]. exists (String y a), b. cbn. now rewrite E.
    + intros (a & b & E). destruct a as [|z a]; [left; exists b; exact E|]. right. exists a, b. cbn in E. now injection E.
Qed.
(* tags of two letters, none of them an underscore *)
Lemma contains_join a b p q : a <> "_"%char -> b <> "_"%char ->
  let t := String a (String b EmptyString) in contains t (p ++ "_" ++ q)%string = (contains t p || contains t q)%bool.
Proof.
  intros A B t. unfold t. induction p as [|c p IH].
  - cbn [String.append contains]. cbn [String.prefix]. destruct (Ascii.ascii_dec a "_") as [E|_]; [contradiction|]. reflexivity.
  - change (contains (String a (String b "")) (String c p ++ "_" ++ q)) with (String.prefix (String a (String b "")) (String c (p ++ "_" ++ q)) || contains (String a (String b "")) (p ++ "_" ++ q))%bool. rewrite IH.
    change (contains (String a (String b "")) (String c p)) with (String.prefix (String a (String b "")) (String c p) || contains (String a (String b "")) p)%bool. rewrite <- orb_assoc. f_equal.
    cbn [String.prefix]. destruct (Ascii.ascii_dec a c); [|reflexivity]. destruct p as [|d p]; [|cbn [String.append String.prefix]; destruct (Ascii.ascii_dec b d); [destruct p; reflexivity|reflexivity]].
    cbn [String.append String.prefix]. destruct (Ascii.ascii_dec b "_"); [contradiction|reflexivity].
Qed.
Lemma any_join subs p q : (forall t, In t subs -> exists a b, t = String a (String b EmptyString) /\ a <> "_"%char /\ b <> "_"%char) ->
  any_of subs (p ++ "_" ++ q)%string = (any_of subs p || any_of subs q)%bool.
Proof.
  intros T. unfold any_of. induction subs as [|t subs IH]; [reflexivity|]. cbn [existsb]. rewrite IH by (intros t' I; apply T; now right).
  destruct (T t ltac:(now left)) as (a & b & -> & A & B). rewrite contains_join by assumption. destruct (contains _ p), (contains _ q), (existsb (fun t => contains t p) subs), (existsb (fun t => contains t q) subs); reflexivity.
Qed.
Lemma tags_ok t : In t (hand1 ++ hand2 ++ parts) -> exists a b, t = String a (String b EmptyString) /\ a <> "_"%char /\ b <> "_"%char.
Proof. cbn. intros H. repeat (destruct H as [<-|H]; [eexists _, _; split; [reflexivity|split; discriminate]|]). destruct H. Qed.
Lemma any_false subs s : any_of subs s = false <-> forall t, In t subs -> ~ occurs t s.
Proof.
  unfold any_of. split.
  - intros H t I O. apply contains_spec in O. assert (E : existsb (fun t => contains t s) subs = true) by (apply existsb_exists; now exists t). congruence.
  - intros H. destruct (existsb _ _) eqn:E; [|reflexivity]. apply existsb_exists in E. destruct E as (t & I & C). apply contains_spec in C. exfalso. now apply (H t).
Qed.

(* ---- the loop over the files ---- *)
Inductive kind := K1re | K1im | K2re | K2im | Kskip | Kbad.
Definition kind_of (p : string) : kind :=
  if any_of hand1 p then (if contains "re" p then K1re else if contains "im" p then K1im else Kbad)
  else if any_of hand2 p then (if contains "re" p then K2re else if contains "im" p then K2im else Kbad) else Kskip.
Lemma load_all_kinds disk p1 p2 p3 p4 ps : (forall p, In p ps -> kind_of p <> Kbad) ->
  (forall p, In p ps -> kind_of p = K1re -> p = p1) -> (forall p, In p ps -> kind_of p = K1im -> p = p2) ->
  (forall p, In p ps -> kind_of p = K2re -> p = p3) -> (forall p, In p ps -> kind_of p = K2im -> p = p4) ->
  forall st, exists st', load_all disk ps st = Ok st' /\
    ((c1_re st' = Some (snd (disk p1)) /\ l_hdr st' = match l_hdr st with None => Some (fst (disk p1)) | Some h => Some h end) \/ (c1_re st' = c1_re st /\ l_hdr st' = l_hdr st /\ forall p, In p ps -> kind_of p <> K1re)) /\
    (c1_im st' = Some (snd (disk p2)) \/ (c1_im st' = c1_im st /\ forall p, In p ps -> kind_of p <> K1im)) /\
    (c2_re st' = Some (snd (disk p3)) \/ (c2_re st' = c2_re st /\ forall p, In p ps -> kind_of p <> K2re)) /\
    (c2_im st' = Some (snd (disk p4)) \/ (c2_im st' = c2_im st /\ forall p, In p ps -> kind_of p <> K2im)).
Proof.
  induction ps as [|p ps IH]; intros B H1 H2 H3 H4 st.
  - exists st. split; [reflexivity|]. repeat split; right; repeat split; intros q [].
  - assert (IH' := IH (fun q I => B q (or_intror I)) (fun q I => H1 q (or_intror I)) (fun q I => H2 q (or_intror I)) (fun q I => H3 q (or_intror I)) (fun q I => H4 q (or_intror I))). clear IH.
    specialize (B p (or_introl eq_refl)). specialize (H1 p (or_introl eq_refl)). specialize (H2 p (or_introl eq_refl)). specialize (H3 p (or_introl eq_refl)). specialize (H4 p (or_introl eq_refl)).
    cbn [load_all]. unfold load_one. unfold kind_of in B, H1, H2, H3, H4. fold hand1 in *. fold hand2 in *.
    assert (K : kind_of p = kind_of p) by reflexivity. unfold kind_of at 1 in K.
    destruct (any_of hand1 p); [destruct (contains "re" p); [|destruct (contains "im" p)]|destruct (any_of hand2 p); [destruct (contains "re" p); [|destruct (contains "im" p)]|]]; try (exfalso; apply B; reflexivity); cbn [bind].
    all: match goal with |- exists st', load_all _ _ ?s = _ /\ _ => destruct (IH' s) as (st' & E & A1 & A2 & A3 & A4) end; exists st'; (split; [exact E|]); cbn [c1_re c1_im c2_re c2_im l_hdr] in *.
    + specialize (H1 eq_refl). subst p1. split; [|split; [|split]].
      * left. destruct A1 as [[X Y]|(X & Y & _)]; rewrite X, Y; split; try reflexivity; destruct (l_hdr st); reflexivity.
      * destruct A2 as [X|[X N]]; [now left|right]. split; [exact X|]. intros q [<-|I]; [rewrite <- K; discriminate|now apply N].
      * destruct A3 as [X|[X N]]; [now left|right]. split; [exact X|]. intros q [<-|I]; [rewrite <- K; discriminate|now apply N].
      * destruct A4 as [X|[X N]]; [now left|right]. split; [exact X|]. intros q [<-|I]; [rewrite <- K; discriminate|now apply N].
    + specialize (H2 eq_refl). subst p2. split; [|split; [|split]].
      * destruct A1 as [[X Y]|(X & Y & N)]; [left; now split|right]. split; [exact X|]. split; [exact Y|]. intros q [<-|I]; [rewrite <- K; discriminate|now apply N].
      * left. destruct A2 as [X|[X _]]; exact X.
      * destruct A3 as [X|[X N]]; [now left|right]. split; [exact X|]. intros q [<-|I]; [rewrite <- K; discriminate|now apply N].
      * destruct A4 as [X|[X N]]; [now left|right]. split; [exact X|]. intros q [<-|I]; [rewrite <- K; discriminate|now apply N].
    + specialize (H3 eq_refl). subst p3. split; [|split; [|split]].
      * destruct A1 as [[X Y]|(X & Y & N)]; [left; now split|right]. split; [exact X|]. split; [exact Y|]. intros q [<-|I]; [rewrite <- K; discriminate|now apply N].
      * destruct A2 as [X|[X N]]; [now left|right]. split; [exact X|]. intros q [<-|I]; [rewrite <- K; discriminate|now apply N].
      * left. destruct A3 as [X|[X _]]; exact X.
      * destruct A4 as [X|[X N]]; [now left|right]. split; [exact X|]. intros q [<-|I]; [rewrite <- K; discriminate|now apply N].
    + specialize (H4 eq_refl). subst p4. split; [|split; [|split]].
      * destruct A1 as [[X Y]|(X & Y & N)]; [left; now split|right]. split; [exact X|]. split; [exact Y|]. intros q [<-|I]; [rewrite <- K; discriminate|now apply N].
      * destruct A2 as [X|[X N]]; [now left|right]. split; [exact X|]. intros q [<-|I]; [rewrite <- K; discriminate|now apply N].
      * destruct A3 as [X|[X N]]; [now left|right]. split; [exact X|]. intros q [<-|I]; [rewrite <- K; discriminate|now apply N].
      * left. destruct A4 as [X|[X _]]; exact X.
    + split; [|split; [|split]].
      * destruct A1 as [[X Y]|(X & Y & N)]; [left; now split|right]. split; [exact X|]. split; [exact Y|]. intros q [<-|I]; [rewrite <- K; discriminate|now apply N].
      * destruct A2 as [X|[X N]]; [now left|right]. split; [exact X|]. intros q [<-|I]; [rewrite <- K; discriminate|now apply N].
      * destruct A3 as [X|[X N]]; [now left|right]. split; [exact X|]. intros q [<-|I]; [rewrite <- K; discriminate|now apply N].
      * destruct A4 as [X|[X N]]; [now left|right]. split; [exact X|]. intros q [<-|I]; [rewrite <- K; discriminate|now apply N].
Qed.
