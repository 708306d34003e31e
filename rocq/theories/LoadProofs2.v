(* Proofs for C55: header, rows, values *)
From Coq Require Import Reals String Ascii Lra Lia.
From Verif Require Import Prelude LoadModel LoadSpec LoadProofs.
Close Scope string_scope. Open Scope list_scope.

(* --- the header --- *)
Lemma split1_none sep s : ~ In sep s -> split1 sep s = (s, None).
Proof. induction s as [|c s IH]; intros H; auto. cbn [split1]. rewrite ch_eqb_neq by (intros ->; apply H; now left). rewrite IH by (intros X; apply H; now right). reflexivity. Qed.
Lemma split1_at sep a b : ~ In sep a -> split1 sep (a ++ sep :: b) = (a, Some b).
Proof. induction a as [|c a IH]; intros H; cbn [app split1]; [now rewrite ch_eqb_refl|]. rewrite ch_eqb_neq by (intros ->; apply H; now left). rewrite IH by (intros X; apply H; now right). reflexivity. Qed.
Lemma split_on_none sep s : ~ In sep s -> split_on sep s = [s].
Proof. induction s as [|c s IH]; intros H; auto. cbn [split_on]. rewrite ch_eqb_neq by (intros ->; apply H; now left). rewrite IH by (intros X; apply H; now right). reflexivity. Qed.
Lemma split_on_at sep a b : ~ In sep a -> split_on sep (a ++ sep :: b) = a :: split_on sep b.
Proof. induction a as [|c a IH]; intros H; cbn [app split_on]; [now rewrite ch_eqb_refl|]. rewrite ch_eqb_neq by (intros ->; apply H; now left). rewrite IH by (intros X; apply H; now right). reflexivity. Qed.

Definition plain (c : ascii) : bool := negb (is_space c || ch_eqb c comma || ch_eqb c equals || ch_eqb c hash || ch_eqb c quote)%bool.
Lemma plain_not c : plain c = true -> is_space c = false /\ c <> comma /\ c <> equals /\ c <> hash /\ c <> quote.
Proof.
  unfold plain, ch_eqb. destruct (is_space c); cbn [orb negb]; [discriminate|]. destruct (ascii_dec c comma); [discriminate|].
  destruct (ascii_dec c equals); [discriminate|]. destruct (ascii_dec c hash); [discriminate|]. destruct (ascii_dec c quote); [discriminate|]. auto.
Qed.
Lemma known_name n k : kind_of n = Some k -> n <> [] /\ forallb plain n = true.
Proof.
  unfold kind_of, chars_eqb. repeat (match goal with |- context [list_eq_dec ascii_dec n ?s] => destruct (list_eq_dec ascii_dec n s) as [->|_]; [intros _; split; [discriminate|vm_compute; reflexivity]|] end). discriminate.
Qed.
Lemma registered_kind n : In n registered <-> exists k, kind_of n = Some k.
Proof.
  split.
  - intros H. unfold registered in H. cbn [map] in H. repeat (destruct H as [<-|H]; [eexists; vm_compute; reflexivity|]). destruct H.
  - intros (k & H). unfold kind_of, chars_eqb in H. unfold registered. cbn [map].
    repeat (match type of H with context [list_eq_dec ascii_dec n ?s] => destruct (list_eq_dec ascii_dec n s) as [->|_]; [cbn [In]; tauto|] end). discriminate.
Qed.
Lemma unregistered n : ~ In n registered -> kind_of n = None.
Proof. intros H. destruct (kind_of n) eqn:E; auto. exfalso. apply H, registered_kind. eauto. Qed.
Lemma plain_in n c : forallb plain n = true -> In c n -> is_space c = false /\ c <> comma /\ c <> equals /\ c <> hash /\ c <> quote.
Proof. intros H Hc. apply plain_not. rewrite forallb_forall in H. auto. Qed.
Lemma plain_trimmed n : forallb plain n = true -> trimmed n.
Proof.
  intros H. split.
  - destruct n as [|c n]; auto. apply (plain_in (c :: n)); auto. now left.
  - destruct (rev n) as [|c r] eqn:E; auto. apply (plain_in n); auto. apply in_rev. rewrite E. now left.
Qed.
Lemma trimmed_app a m b : a <> [] -> b <> [] -> trimmed a -> trimmed b -> trimmed (a ++ m ++ b).
Proof.
  intros Na Nb [A _] [_ B]. split.
  - destruct a; [congruence|exact A].
  - rewrite !rev_app_distr. destruct (rev b) as [|c r] eqn:E; [|exact B]. exfalso. apply Nb. rewrite <- (rev_involutive b), E. reflexivity.
Qed.
Lemma group_plain c s : is_space c = false -> c <> equals -> default_group (c :: s) = None.
Proof. intros A B. unfold default_group. cbn [lstrip]. rewrite A, (ch_eqb_neq _ _ B). reflexivity. Qed.
Lemma quoted_whole d : ~ In quote d -> quoted_end (d ++ [quote]) = Some d.
Proof.
  induction d as [|c d IH]; intros H; [reflexivity|]. cbn [app quoted_end]. rewrite ch_eqb_neq by (intros ->; apply H; now left). cbn [andb].
  rewrite IH by (intros X; apply H; now right). reflexivity.
Qed.
Lemma header_column c : forallb plain (fst c) = true -> good_default (snd c) -> col_header (written_column c) = c.
Proof.
  destruct c as [n d]. unfold written_column. cbn [fst snd]. intros Hn Hd. destruct d as [d|].
  - destruct Hd as (Hq & _). change (text "='") with [equals; quote]. change (text "'") with [quote]. induction n as [|c n IH].
    + cbn [app]. change (col_header (equals :: quote :: d ++ [quote])) with (match default_group (equals :: quote :: d ++ [quote]) with Some d0 => ([], Some d0) | None => let '(n, d0) := col_header (quote :: d ++ [quote]) in (equals :: n, d0) end).
      replace (default_group (equals :: quote :: d ++ [quote])) with (quoted_end (d ++ [quote])) by reflexivity. now rewrite (quoted_whole d Hq).
    + cbn [forallb] in Hn. apply andb_prop in Hn. destruct Hn as [Hc Hn]. destruct (plain_not c Hc) as (A & _ & B & _). rewrite <- app_comm_cons. cbn [col_header].
      rewrite (group_plain c _ A B). rewrite (IH Hn). reflexivity.
  - induction n as [|c n IH]; [reflexivity|]. cbn [forallb] in Hn. apply andb_prop in Hn. destruct Hn as [Hc Hn]. destruct (plain_not c Hc) as (A & _ & B & _). cbn [col_header].
    rewrite (group_plain c _ A B). rewrite (IH Hn). reflexivity.
Qed.
Lemma column_facts c : fst c <> [] -> forallb plain (fst c) = true -> good_default (snd c) ->
  written_column c <> [] /\ trimmed (written_column c) /\ ~ In comma (written_column c) /\ ~ In hash (written_column c).
Proof.
  destruct c as [n d]. unfold written_column. cbn [fst snd]. intros Ne Hn Hd. destruct d as [d|].
  - destruct Hd as (Hq & Hc & Hh). repeat split.
    + destruct n; [congruence|discriminate].
    + destruct n as [|c n]; [congruence|]. cbn [app]. apply (plain_in (c :: n)); auto. now left.
    + rewrite !rev_app_distr. reflexivity.
    + intros X. change (text "='") with [equals; quote] in X. change (text "'") with [quote] in X. apply in_app_or in X. destruct X as [X|X]; [now apply (plain_in n) in X|]. cbn [app] in X. apply in_inv in X. destruct X as [X|X]; [discriminate|]. apply in_inv in X. destruct X as [X|X]; [discriminate|]. apply in_app_or in X. destruct X as [X|X]; [auto|]. apply in_inv in X. destruct X as [X|[]]; discriminate.
    + intros X. change (text "='") with [equals; quote] in X. change (text "'") with [quote] in X. apply in_app_or in X. destruct X as [X|X]; [now apply (plain_in n) in X|]. cbn [app] in X. apply in_inv in X. destruct X as [X|X]; [discriminate|]. apply in_inv in X. destruct X as [X|X]; [discriminate|]. apply in_app_or in X. destruct X as [X|X]; [auto|]. apply in_inv in X. destruct X as [X|[]]; discriminate.
  - split; [auto|]. split; [now apply plain_trimmed|]. split; intros X; now apply (plain_in n) in X.
Qed.
Lemma join_cons f g fs : join (text ", ") (f :: g :: fs) = f ++ comma :: sp :: join (text ", ") (g :: fs). Proof. reflexivity. Qed.
Lemma join_facts fs : fs <> [] -> (forall f, In f fs -> f <> [] /\ trimmed f /\ ~ In comma f /\ ~ In hash f) ->
  join (text ", ") fs <> [] /\ trimmed (join (text ", ") fs) /\ ~ In hash (join (text ", ") fs).
Proof.
  induction fs as [|f fs IH]; [congruence|]. intros _ H. destruct (H f) as (A & B & C & D); [now left|]. destruct fs as [|g fs]; [cbn [join]; auto|].
  destruct IH as (A' & B' & D'); [discriminate|intros x Hx; apply H; now right|]. rewrite join_cons. split; [destruct f; [congruence|discriminate]|]. split.
  - exact (trimmed_app f [comma; sp] _ A A' B B').
  - intros X. apply in_app_or in X. destruct X as [X|[X|[X|X]]]; [auto|discriminate|discriminate|auto].
Qed.
Lemma lead f pre : pre = [] \/ pre = [sp] -> trimmed f -> ~ In comma f -> ~ In comma (pre ++ f) /\ strip (pre ++ f) = f.
Proof.
  intros Hp T N. split; [destruct Hp as [->| ->]; [exact N|intros X; apply in_inv in X; destruct X as [X|X]; [discriminate|auto]]|].
  rewrite <- (app_nil_r (pre ++ f)), <- app_assoc. apply strip_around; [|intros c []|exact T].
  intros c Hc. destruct Hp as [->| ->]; [destruct Hc|]. destruct Hc as [<-|[]]. reflexivity.
Qed.
Lemma split_join fs : (forall f, In f fs -> f <> [] /\ trimmed f /\ ~ In comma f /\ ~ In hash f) -> fs <> [] -> map strip (split_on comma (join (text ", ") fs)) = fs.
Proof.
  intros H Hne.
  assert (G : forall fs f pre, (pre = [] \/ pre = [sp]) -> (forall x, In x (f :: fs) -> x <> [] /\ trimmed x /\ ~ In comma x /\ ~ In hash x) -> map strip (split_on comma (pre ++ join (text ", ") (f :: fs))) = f :: fs).
  { clear. induction fs as [|g fs IH]; intros f pre Hp H.
    - destruct (H f (or_introl eq_refl)) as (_ & T & N & _). destruct (lead f pre Hp T N) as (F & S'). cbn [join]. rewrite (split_on_none comma _ F). cbn [map]. now rewrite S'.
    - destruct (H f (or_introl eq_refl)) as (_ & T & N & _). destruct (lead f pre Hp T N) as (F & S'). rewrite join_cons, app_assoc. rewrite (split_on_at comma _ _ F). cbn [map]. rewrite S'. f_equal.
      apply (IH g [sp]); [now right|]. intros x Hx. apply H. now right. }
  destruct fs as [|f fs]; [congruence|]. apply (G fs f []); auto.
Qed.
Lemma columns_facts cols : good_columns cols -> forall f, In f (map written_column cols) -> f <> [] /\ trimmed f /\ ~ In comma f /\ ~ In hash f.
Proof. intros (_ & H) f Hf. apply in_map_iff in Hf. destruct Hf as (c & <- & Hc). destruct (H c Hc) as (Hk' & Hd). apply registered_kind in Hk'. destruct Hk' as (k & Hk). destruct (known_name _ _ Hk). now apply column_facts. Qed.
Lemma written_found cols rest : good_columns cols -> exists h, find_header (written_header cols :: rest) = Ok (h, rest) /\ parse_header h = Ok cols.
Proof.
  intros G. pose proof (columns_facts cols G) as F. destruct G as (Hne & G).
  assert (Hne' : map written_column cols <> []) by (destruct cols; [congruence|discriminate]).
  destruct (join_facts _ Hne' F) as (A & B & C). set (j := join (text ", ") (map written_column cols)) in *.
  exists (text "Format = " ++ j). split.
  - cbn [find_header]. unfold written_header. fold j. rewrite split1_none.
    2:{ intros X. apply in_app_or in X. destruct X as [X|X]; [vm_compute in X; intuition discriminate|]. apply in_app_or in X. destruct X as [X|[X|[]]]; [auto|discriminate]. }
    cbn [fst]. assert (E : strip (text "Format = " ++ j ++ [ascii_of_nat 10]) = text "Format = " ++ j).
    { rewrite app_assoc. apply (strip_around [] (text "Format = " ++ j) [nl]); [intros c []|intros c [<-|[]]; reflexivity|].
      apply (trimmed_app (text "Format") (text " = ") j); [discriminate|exact A|split; vm_compute; reflexivity|exact B]. }
    rewrite E. reflexivity.
  - unfold parse_header. change (text "Format = " ++ j) with (text "Format " ++ equals :: sp :: j). rewrite split1_at by (vm_compute; intuition discriminate).
    replace (chars_eqb (strip (text "Format ")) (text "Format")) with true by (vm_compute; reflexivity).
    assert (E : strip (sp :: j) = j) by (rewrite <- (app_nil_r j) at 1; apply (strip_around [sp] j []); [intros c [<-|[]]; reflexivity|intros c []|exact B]).
    rewrite E. f_equal. unfold parse_col_descriptor. rewrite <- (map_map strip col_header). unfold j. rewrite (split_join _ F Hne'), map_map.
    transitivity (map (fun c => c) cols); [|apply map_id]. apply map_ext_in. intros c Hc. destruct (G c Hc) as (Hk' & Hd). apply registered_kind in Hk'. destruct Hk' as (k & Hk). destruct (known_name _ _ Hk). now apply header_column.
Qed.
Lemma blank_strip l : blank l <-> strip (fst (split1 hash l)) = [].
Proof.
  unfold blank. set (s := fst (split1 hash l)). split; [apply strip_spaces|]. intros E. unfold strip in E.
  assert (E1 : lstrip (rev (lstrip s)) = []) by (rewrite <- (rev_involutive (lstrip (rev (lstrip s)))), E; reflexivity).
  destruct (lstrip_prefix s) as (a & Ea & Ha). destruct (lstrip_prefix (rev (lstrip s))) as (b & Eb & Hb). rewrite E1, app_nil_r in Eb.
  assert (El : lstrip s = []).
  { pose proof (lstrip_head s) as Hh. destruct (lstrip s) as [|c t]; auto. exfalso. assert (is_space c = true) by (apply Hb; rewrite <- Eb; apply in_rev; rewrite rev_involutive; now left). congruence. }
  rewrite Ea, El, app_nil_r. exact Ha.
Qed.
Lemma skip_blank pre lines : (forall l, In l pre -> blank l) -> find_header (pre ++ lines) = find_header lines.
Proof. induction pre as [|l pre IH]; intros H; auto. cbn [app find_header]. rewrite (proj1 (blank_strip l)) by (apply H; now left). apply IH. intros x Hx. apply H. now right. Qed.
Lemma found_header lines h rest : find_header lines = Ok (h, rest) <-> header_at lines h rest.
Proof.
  split.
  - revert h rest. induction lines as [|l lines IH]; intros h rest H; [discriminate|]. cbn [find_header] in H.
    destruct (strip (fst (split1 hash l))) as [|c s] eqn:E.
    + destruct (IH _ _ H) as (pre & line & -> & Hp & Hl & Hh). exists (l :: pre), line. repeat split; auto. intros x [<-|Hx]; auto. now apply blank_strip.
    + injection H as <- <-. exists [], l. repeat split; auto; [intros x []|]. intros B. apply blank_strip in B. congruence.
  - intros (pre & line & -> & Hp & Hl & ->). rewrite skip_blank by auto. cbn [find_header]. destruct (strip (fst (split1 hash line))) eqn:E; [|reflexivity]. exfalso. apply Hl. now apply blank_strip.
Qed.
Lemma no_header lines : (forall l, In l lines -> blank l) -> find_header lines = Raise ValueError.
Proof. intros H. rewrite <- (app_nil_r lines). rewrite skip_blank by auto. reflexivity. Qed.
Lemma kinds_ok names ks : all_kinds names = Ok ks -> List.length ks = List.length names /\ forall c, (c < List.length names)%nat -> kind_of (nth c names []) = Some (nth c ks KText).
Proof.
  revert ks. induction names as [|n names IH]; intros ks H; cbn [all_kinds] in H; [injection H as <-; split; [reflexivity|cbn; lia]|].
  destruct (kind_of n) as [k|] eqn:E; [|discriminate]. destruct (all_kinds names) as [ks'|] eqn:E'; [|discriminate]. cbn in H. injection H as <-.
  destruct (IH _ eq_refl) as (L & N). split; [cbn; lia|]. intros [|c] Hc; [exact E|]. apply N. cbn in Hc. lia.
Qed.
Lemma kinds_all names : (forall n, In n names -> exists k, kind_of n = Some k) -> exists ks, all_kinds names = Ok ks.
Proof.
  induction names as [|n names IH]; intros H; [eexists; reflexivity|]. cbn [all_kinds]. destruct (H n) as (k & ->); [now left|]. destruct IH as (ks & ->); [intros x Hx; apply H; now right|]. eexists. reflexivity.
Qed.
Lemma kinds_unknown names n : In n names -> kind_of n = None -> all_kinds names = Raise ValueError.
Proof.
  induction names as [|m names IH]; intros H E; [destruct H|]. cbn [all_kinds]. destruct H as [->|H]; [now rewrite E|]. destruct (kind_of m); [|reflexivity]. rewrite IH; auto.
Qed.

(* --- rows --- *)
Section Rows.
  Context {Lit : Type}.
  Variable pyfloat : chars -> res R.
  Variable literal_eval : chars -> res Lit.
  Notation value := (@value Lit).
  Notation cell := (cell pyfloat literal_eval).
  Notation cells := (cells pyfloat literal_eval).
  Notation dk := (KText, @None chars).
  Lemma cells_ok cols : forall comps data out, List.length comps = List.length cols -> List.length data = List.length cols -> cells cols comps data = Ok out ->
    List.length out = List.length cols /\ forall c, (c < List.length cols)%nat -> exists v : value,
      cell (fst (nth c cols dk)) (snd (nth c cols dk)) (nth c comps []) = Ok v /\ nth c out [] = nth c data [] ++ [v].
  Proof.
    induction cols as [|[k d] cols IH]; intros comps data out Hc Hd H.
    - destruct comps; [|discriminate]. cbn in H. injection H as <-. split; auto. cbn. intros; lia.
    - destruct comps as [|comp comps]; [discriminate|]. destruct data as [|dl data]; [discriminate|]. cbn [LoadModel.cells] in H.
      destruct (cell k d comp) as [v|] eqn:E; [|discriminate]. cbn [bind] in H. destruct (cells cols comps data) as [rest|] eqn:E'; [|discriminate]. cbn [bind] in H. injection H as <-.
      destruct (IH comps data rest) as (L & N); auto. split; [cbn; lia|]. intros [|c] Hc'; [exists v; auto|]. apply N. cbn in Hc'. lia.
  Qed.
  Lemma cells_all cols : forall comps data (T : nat -> value), List.length comps = List.length cols -> List.length data = List.length cols ->
    (forall c, (c < List.length cols)%nat -> cell (fst (nth c cols dk)) (snd (nth c cols dk)) (nth c comps []) = Ok (T c)) -> exists out, cells cols comps data = Ok out.
  Proof.
    induction cols as [|[k d] cols IH]; intros comps data T Hc Hd H.
    - destruct comps; [|discriminate]. cbn. eauto.
    - destruct comps as [|comp comps]; [discriminate|]. destruct data as [|dl data]; [discriminate|]. cbn [LoadModel.cells].
      pose proof (H O ltac:(cbn; lia)) as H0. cbn [nth fst snd] in H0. rewrite H0. cbn [bind].
      destruct (IH comps data (fun c => T (S c))) as (rest & ->); auto; [|cbn; eauto]. intros c Hc'. apply (H (S c)). cbn. lia.
  Qed.
  Notation parse_lines_from := (parse_lines_from pyfloat literal_eval).
  Lemma rows_ok cols lines : forall data out, List.length data = List.length cols -> parse_lines_from cols lines data = Ok out ->
    List.length out = List.length cols /\ (forall i, (i < List.length lines)%nat -> List.length (fields (nth i lines [])) = List.length cols) /\
    forall c, (c < List.length cols)%nat -> exists vs : list value, List.length vs = List.length lines /\ nth c out [] = nth c data [] ++ vs /\
      forall i v0, (i < List.length lines)%nat -> cell (fst (nth c cols dk)) (snd (nth c cols dk)) (nth c (fields (nth i lines [])) []) = Ok (nth i vs v0).
  Proof.
    induction lines as [|line lines IH]; intros data out Hd H.
    - cbn in H. injection H as <-. split; auto. split; [cbn; intros; lia|]. intros c Hc. exists []. rewrite app_nil_r. split; auto. split; auto. cbn. intros; lia.
    - cbn [LoadModel.parse_lines_from] in H. unfold parse_line in H. fold (fields line) in H. destruct (Nat.eqb_spec (List.length (fields line)) (List.length cols)) as [E|E]; [|discriminate]. cbn [negb] in H.
      destruct (cells cols (fields line) data) as [d1|] eqn:E1; [|discriminate]. cbn [bind] in H. destruct (cells_ok _ _ _ _ E Hd E1) as (L1 & N1).
      destruct (IH d1 out L1 H) as (L2 & C2 & N2). split; auto. split.
      { intros [|i] Hi; auto. apply C2. cbn in Hi. lia. }
      intros c Hc. destruct (N1 c Hc) as (v & Hv & Ev). destruct (N2 c Hc) as (vs & Lv & En & Hvs). exists (v :: vs). split; [cbn; lia|]. split.
      { rewrite En, Ev, <- app_assoc. reflexivity. }
      intros [|i] v0 Hi; [exact Hv|]. apply Hvs. cbn in Hi. lia.
  Qed.
  Lemma rows_all cols lines : forall data (T : nat -> nat -> value), List.length data = List.length cols ->
    (forall i, (i < List.length lines)%nat -> List.length (fields (nth i lines [])) = List.length cols) ->
    (forall i c, (i < List.length lines)%nat -> (c < List.length cols)%nat -> cell (fst (nth c cols dk)) (snd (nth c cols dk)) (nth c (fields (nth i lines [])) []) = Ok (T i c)) ->
    exists out, parse_lines_from cols lines data = Ok out.
  Proof.
    induction lines as [|line lines IH]; intros data T Hd HL HT; [cbn; eauto|]. cbn [LoadModel.parse_lines_from]. unfold parse_line. fold (fields line).
    pose proof (HL O ltac:(cbn; lia)) as E. cbn [nth] in E. rewrite E, Nat.eqb_refl. cbn [negb].
    destruct (cells_all cols (fields line) data (T O) E Hd) as (d1 & E1); [intros c Hc; apply (HT O c); [cbn; lia|auto]|]. rewrite E1. cbn [bind].
    destruct (cells_ok _ _ _ _ E Hd E1) as (L1 & _). apply (IH d1 (fun i => T (S i)) L1).
    - intros i Hi. apply (HL (S i)). cbn. lia.
    - intros i c Hi Hc. apply (HT (S i) c); [cbn; lia|auto].
  Qed.
  Lemma rows_bad cols bad : List.length (fields bad) <> List.length cols -> forall before after data (T : nat -> nat -> value), List.length data = List.length cols ->
    (forall i, (i < List.length before)%nat -> List.length (fields (nth i before [])) = List.length cols) ->
    (forall i c, (i < List.length before)%nat -> (c < List.length cols)%nat -> cell (fst (nth c cols dk)) (snd (nth c cols dk)) (nth c (fields (nth i before [])) []) = Ok (T i c)) ->
    parse_lines_from cols (before ++ bad :: after) data = Raise ValueError.
  Proof.
    intros Hb before after. induction before as [|line lines IH]; intros data T Hd HL HT.
    - cbn [app LoadModel.parse_lines_from]. unfold parse_line. fold (fields bad). apply Nat.eqb_neq in Hb. rewrite Hb. reflexivity.
    - cbn [app LoadModel.parse_lines_from]. unfold parse_line. fold (fields line).
      pose proof (HL O ltac:(cbn; lia)) as E. cbn [nth] in E. rewrite E, Nat.eqb_refl. cbn [negb].
      destruct (cells_all cols (fields line) data (T O) E Hd) as (d1 & E1); [intros c Hc; apply (HT O c); [cbn; lia|auto]|]. rewrite E1. cbn [bind].
      destruct (cells_ok _ _ _ _ E Hd E1) as (L1 & _). apply (IH d1 (fun i => T (S i)) L1).
      + intros i Hi. apply (HL (S i)). cbn. lia.
      + intros i c Hi Hc. apply (HT (S i) c); [cbn; lia|auto].
  Qed.
End Rows.
