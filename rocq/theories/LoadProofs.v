(* Proofs for C55: text *)
From Coq Require Import Reals String Ascii.
From Verif Require Import Prelude LoadModel LoadSpec.
Close Scope string_scope. Open Scope list_scope.

Lemma ch_eqb_refl c : ch_eqb c c = true. Proof. unfold ch_eqb. destruct (ascii_dec c c); congruence. Qed.
Lemma ch_eqb_neq a b : a <> b -> ch_eqb a b = false. Proof. unfold ch_eqb. destruct (ascii_dec a b); congruence. Qed.
Lemma chars_eqb_refl a : chars_eqb a a = true. Proof. unfold chars_eqb. destruct (list_eq_dec _ a a); congruence. Qed.

(* --- strip --- *)
Lemma lstrip_id s : match s with [] => True | c :: _ => is_space c = false end -> lstrip s = s.
Proof. destruct s as [|c s]; auto. cbn. now intros ->. Qed.
Lemma lstrip_spaces a s : (forall c, In c a -> is_space c = true) -> lstrip (a ++ s) = lstrip s.
Proof. induction a as [|c a IH]; intros H; auto. cbn. rewrite (H c) by now left. apply IH. intros x Hx. apply H. now right. Qed.
Lemma lstrip_prefix s : exists a, s = a ++ lstrip s /\ forall c, In c a -> is_space c = true.
Proof.
  induction s as [|c s IH]; [exists []; split; [reflexivity|intros c []]|]. cbn. destruct (is_space c) eqn:E.
  - destruct IH as (a & Ea & Ha). exists (c :: a). split; [cbn; now f_equal|]. intros x [<-|Hx]; auto.
  - exists []. split; [reflexivity|intros x []].
Qed.
Lemma lstrip_head s : match lstrip s with [] => True | c :: _ => is_space c = false end.
Proof. induction s as [|c s IH]; cbn; auto. destruct (is_space c) eqn:E; auto. Qed.
Lemma strip_id s : trimmed s -> strip s = s.
Proof. intros [A B]. unfold strip. rewrite (lstrip_id s A). rewrite lstrip_id by auto. apply rev_involutive. Qed.
Lemma strip_around a s b : (forall c, In c a -> is_space c = true) -> (forall c, In c b -> is_space c = true) -> trimmed s -> strip (a ++ s ++ b) = s.
Proof.
  intros Ha Hb T. unfold strip. rewrite lstrip_spaces by auto. destruct s as [|c s].
  - cbn [app]. assert (E : lstrip b = []). { rewrite <- (app_nil_r b). rewrite lstrip_spaces by auto. reflexivity. } rewrite E. reflexivity.
  - rewrite (lstrip_id ((c :: s) ++ b)) by (destruct T; auto). rewrite rev_app_distr. rewrite lstrip_spaces by (intros x Hx; apply Hb; now apply in_rev).
    rewrite lstrip_id by (destruct T; auto). apply rev_involutive.
Qed.
Lemma strip_spaces s : (forall c, In c s -> is_space c = true) -> strip s = [].
Proof. intros H. rewrite <- (app_nil_r s). change (strip (s ++ [] ++ []) = []). apply strip_around; [auto|intros c []|split; exact I]. Qed.
Lemma strip_trimmed s : trimmed (strip s).
Proof.
  unfold strip. set (a := lstrip s). assert (Ha : match a with [] => True | c :: _ => is_space c = false end) by apply lstrip_head.
  destruct (lstrip_prefix (rev a)) as (p & Ep & Hp). pose proof (lstrip_head (rev a)) as Hl. set (l := lstrip (rev a)) in *. split; [|now rewrite rev_involutive].
  assert (Ea : a = rev l ++ rev p) by (rewrite <- rev_app_distr, <- Ep; symmetry; apply rev_involutive).
  destruct (rev l) as [|c r]; auto. rewrite Ea in Ha. exact Ha.
Qed.

(* --- commas and brackets --- *)
(* text in which brackets are closed and not nested *)
Fixpoint line_from (inside : bool) (s : chars) : Prop :=
  match s with
  | [] => inside = false
  | c :: s' =>
      if inside then c <> lbracket /\ (if ascii_dec c rbracket then line_from false s' else line_from true s')
      else c <> rbracket /\ (if ascii_dec c lbracket then line_from true s' else line_from false s')
  end.
Lemma line_outside s : forall b, line_from b s -> outside s = negb b.
Proof.
  induction s as [|c s IH]; intros b H; cbn [line_from field_from outside app negb] in *; [now subst|]. destruct b.
  - destruct H as (N & H). destruct (ascii_dec c rbracket) as [->|N']; [now rewrite ch_eqb_refl|].
    rewrite (ch_eqb_neq _ _ N'), (ch_eqb_neq _ _ N). apply (IH true). auto.
  - destruct H as (N & H). rewrite (ch_eqb_neq _ _ N). destruct (ascii_dec c lbracket) as [->|N']; [now rewrite ch_eqb_refl|].
    rewrite (ch_eqb_neq _ _ N'). apply (IH false). auto.
Qed.
Lemma field_line f r : forall b, field_from b f -> line_from false r -> line_from b (f ++ r).
Proof.
  induction f as [|c f IH]; intros b H Hr; cbn [line_from field_from outside app negb] in *; [now subst|]. destruct b.
  - destruct H as (N & H). split; auto. destruct (ascii_dec c rbracket); apply IH; auto.
  - destruct H as (_ & N & H). split; auto. destruct (ascii_dec c lbracket); apply IH; auto.
Qed.
Lemma comma_split_ne s : comma_split s <> [].
Proof. destruct s as [|c s]; cbn; [discriminate|]. destruct (_ && _)%bool; [discriminate|]. destruct (comma_split s); discriminate. Qed.
Lemma split_last f : forall b, field_from b f -> comma_split f = [f].
Proof.
  induction f as [|c f IH]; intros b H; [reflexivity|]. cbn [comma_split field_from] in *.
  assert (Hn : exists b', field_from b' f /\ (ch_eqb c comma && outside f)%bool = false).
  { destruct b.
    - destruct H as (N & H). destruct (ascii_dec c rbracket) as [->|N']; [exists false; split; auto|].
      exists true. split; auto. rewrite (line_outside f true) by (rewrite <- (app_nil_r f); apply field_line; cbn; auto). apply andb_false_r.
    - destruct H as (N & N' & H). destruct (ascii_dec c lbracket); [exists true|exists false]; split; auto; now rewrite (ch_eqb_neq _ _ N). }
  destruct Hn as (b' & Hf & ->). now rewrite (IH b' Hf).
Qed.
Lemma split_first f r : forall b, field_from b f -> line_from false r -> comma_split (f ++ comma :: r) = f :: comma_split r.
Proof.
  induction f as [|c f IH]; intros b H Hr.
  - cbn [app comma_split]. rewrite ch_eqb_refl, (line_outside r false Hr). reflexivity.
  - cbn [comma_split field_from app] in *.
    assert (L : line_from false (comma :: r)) by (cbn; split; [discriminate|exact Hr]).
    assert (Hn : exists b', field_from b' f /\ (ch_eqb c comma && outside (f ++ comma :: r))%bool = false).
    { destruct b.
      - destruct H as (N & H). destruct (ascii_dec c rbracket) as [->|N']; [exists false; split; auto|].
        exists true. split; auto. rewrite (line_outside (f ++ comma :: r) true) by (apply field_line; auto). apply andb_false_r.
      - destruct H as (N & N' & H). destruct (ascii_dec c lbracket); [exists true|exists false]; split; auto; now rewrite (ch_eqb_neq _ _ N). }
    destruct Hn as (b' & Hf & ->). now rewrite (IH b' Hf Hr).
Qed.
Lemma field_app f g : (forall c, In c g -> c <> comma /\ c <> lbracket /\ c <> rbracket) -> forall b, field_from b f -> field_from b (f ++ g).
Proof.
  intros Hg. induction f as [|c f IH]; intros b H; cbn [line_from field_from outside app negb] in *.
  - subst b. induction g as [|c g IHg]; [reflexivity|]. cbn [field_from]. destruct (Hg c) as (A & B & C); [now left|]. repeat split; auto. destruct (ascii_dec c lbracket); [contradiction|].
    apply IHg. intros x Hx. apply Hg. now right.
  - destruct b.
    + destruct H as (N & H). split; auto. destruct (ascii_dec c rbracket); auto.
    + destruct H as (N & N' & H). repeat split; auto. destruct (ascii_dec c lbracket); auto.
Qed.
Definition sp := ascii_of_nat 32.
Definition nl := ascii_of_nat 10.
Lemma field_sp f : field_from false f -> field_from false (sp :: f).
Proof. intros H. cbn [field_from]. repeat split; [discriminate|discriminate|]. destruct (ascii_dec sp lbracket); [discriminate|auto]. Qed.
Lemma join_line fs : (forall f, In f fs -> field_from false f) -> line_from false (join (text ", ") fs ++ [nl]).
Proof.
  induction fs as [|f fs IH]; intros H; [cbn; split; [discriminate|reflexivity]|]. destruct fs as [|g fs].
  - cbn [join]. apply field_line; [apply H; now left|cbn; split; [discriminate|reflexivity]].
  - change (join (text ", ") (f :: g :: fs)) with (f ++ comma :: sp :: join (text ", ") (g :: fs)). rewrite <- app_assoc. apply field_line; [apply H; now left|].
    cbn [app line_from]. split; [discriminate|]. destruct (ascii_dec comma lbracket); [discriminate|]. split; [discriminate|]. destruct (ascii_dec sp lbracket); [discriminate|].
    apply IH. intros x Hx. apply H. now right.
Qed.
(* a written row is read back *)
Lemma row_fields fs : fs <> [] -> (forall f, In f fs -> good_field f) -> map strip (comma_split (written_row fs)) = fs.
Proof.
  unfold written_row. fold nl. intros Hne H. 
  assert (G : forall fs f pre, (pre = [] \/ pre = [sp]) -> (forall x, In x (f :: fs) -> good_field x) -> map strip (comma_split (pre ++ join (text ", ") (f :: fs) ++ [nl])) = f :: fs).
  { clear. induction fs as [|g fs IH]; intros f pre Hp H.
    - cbn [join]. destruct (H f) as (Hf & Ht); [now left|].
      assert (F : field_from false (pre ++ f)) by (destruct Hp as [->| ->]; [auto|now apply field_sp]).
      rewrite app_assoc. rewrite (split_last ((pre ++ f) ++ [nl]) false).
      + cbn [map]. f_equal. rewrite <- app_assoc. apply strip_around; auto.
        * intros c Hc. destruct Hp as [->| ->]; [destruct Hc|]. destruct Hc as [<-|[]]. reflexivity.
        * intros c [<-|[]]. reflexivity.
      + apply field_app; auto. intros c [<-|[]]. repeat split; discriminate.
    - destruct (H f) as (Hf & Ht); [now left|].
      assert (F : field_from false (pre ++ f)) by (destruct Hp as [->| ->]; [auto|now apply field_sp]).
      change (join (text ", ") (f :: g :: fs)) with (f ++ comma :: sp :: join (text ", ") (g :: fs)).
      replace (pre ++ (f ++ comma :: sp :: join (text ", ") (g :: fs)) ++ [nl]) with ((pre ++ f) ++ comma :: ([sp] ++ join (text ", ") (g :: fs) ++ [nl])).
      2:{ rewrite <- !app_assoc. cbn [app]. rewrite <- ?app_assoc. reflexivity. }
      rewrite (split_first (pre ++ f) _ false F).
      + cbn [map]. f_equal.
        * rewrite <- (app_nil_r (pre ++ f)), <- app_assoc. apply strip_around; [|intros c []|exact Ht].
          intros c Hc. destruct Hp as [->| ->]; [destruct Hc|]. destruct Hc as [<-|[]]. reflexivity.
        * apply IH; auto. intros x Hx. apply H. now right.
      + cbn [app line_from]. split; [discriminate|]. destruct (ascii_dec sp lbracket); [discriminate|]. apply join_line. intros x Hx. apply H. now right. }
  destruct fs as [|f fs]; [congruence|]. apply (G fs f []); auto.
Qed.
