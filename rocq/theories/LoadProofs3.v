(* Proofs for C55: whole files, values *)
From Coq Require Import Reals String Ascii Lra Lia.
From Verif Require Import Prelude LoadModel LoadSpec LoadProofs LoadProofs2.
Close Scope string_scope. Open Scope list_scope.

Lemma nth_map_seq {A} (f : nat -> A) n c d : (c < n)%nat -> nth c (map f (seq 0 n)) d = f c.
Proof. intros H. rewrite (nth_indep _ d (f O)) by (rewrite map_length, seq_length; exact H). rewrite map_nth, seq_nth by exact H. reflexivity. Qed.
Section Files.
  Context {Lit : Type}.
  Variable pyfloat : chars -> res R.
  Variable literal_eval : chars -> res Lit.
  Notation value := (@value Lit).
  Notation load := (load pyfloat literal_eval).
  Notation cell := (cell pyfloat literal_eval).
  Lemma load_ok lines out : load lines = Ok out -> exists header rest cols, header_at lines header rest /\ parse_header header = Ok cols /\ map fst out = map fst cols /\
    (forall i, (i < List.length rest)%nat -> List.length (fields (nth i rest [])) = List.length cols) /\
    forall c, (c < List.length cols)%nat -> List.length (nth c (map snd out) []) = List.length rest /\
      forall i v0, (i < List.length rest)%nat -> column_value_at pyfloat literal_eval (nth c cols ([], None)) (nth c (fields (nth i rest [])) []) = Ok (nth i (nth c (map snd out) []) v0).
  Proof.
    unfold LoadModel.load. destruct (find_header lines) as [[h rest]|] eqn:E; [|discriminate]. cbn [bind]. destruct (parse_header h) as [cols|] eqn:E1; [|discriminate]. cbn [bind].
    destruct (all_kinds (map fst cols)) as [ks|] eqn:E2; [|discriminate]. cbn [bind]. unfold parse_lines. destruct (kinds_ok _ _ E2) as (Lk & Nk). rewrite map_length in Lk, Nk.
    set (kc := combine ks (map snd cols)). assert (Lc : List.length kc = List.length cols) by (unfold kc; rewrite combine_length, map_length, Lk; apply Nat.min_id).
    destruct (parse_lines_from pyfloat literal_eval kc rest _) as [d|] eqn:E3; [|discriminate]. cbn [bind]. intros H. injection H as <-.
    rewrite map_length in E3. destruct (rows_ok pyfloat literal_eval kc rest (repeat [] (List.length cols)) d ltac:(rewrite repeat_length; lia) E3) as (Ld & Cf & Cc). rewrite Lc in *.
    exists h, rest, cols. split; [now apply found_header|]. split; [exact E1|].
    assert (F : map fst (combine (map fst cols) d) = map fst cols /\ map snd (combine (map fst cols) d) = d).
    { clear - Ld. revert d Ld. induction cols as [|c cols IH]; intros [|x d] L; try discriminate; auto. cbn. destruct (IH d) as (A & B); [cbn in L; lia|]. rewrite A, B. auto. }
    destruct F as (F1 & F2). rewrite F1, F2. split; [reflexivity|]. split; [exact Cf|]. intros c Hc. destruct (Cc c Hc) as (vs & Lv & Ev & Hv).
    assert (Ek : kind_of (fst (nth c cols ([], None))) = Some (nth c ks KText)) by (rewrite <- (Nk c Hc); f_equal; rewrite <- (map_nth fst); reflexivity).
    assert (Er : nth c d [] = vs). { rewrite Ev. rewrite nth_repeat. reflexivity. }
    rewrite Er. split; [exact Lv|]. intros i v0 Hi. specialize (Hv i v0 Hi). unfold kc in Hv. rewrite combine_nth in Hv by (rewrite map_length; lia). cbn [fst snd] in Hv.
    rewrite <- Hv. unfold column_value_at. rewrite Ek. f_equal. change None with (snd (@nil ascii, @None chars)) at 2. rewrite map_nth. reflexivity.
  Qed.
  Lemma load_written pre cols rows (T : nat -> nat -> value) : (forall l, In l pre -> blank l) -> good_columns cols ->
    (forall row, In row rows -> List.length row = List.length cols /\ forall f, In f row -> good_field f) ->
    (forall i c, (i < List.length rows)%nat -> (c < List.length cols)%nat -> column_value_at pyfloat literal_eval (nth c cols ([], None)) (nth c (nth i rows []) []) = Ok (T i c)) ->
    load (pre ++ written_header cols :: map written_row rows) = Ok (map (fun c => (fst (nth c cols ([], None)), map (fun i => T i c) (seq 0 (List.length rows)))) (seq 0 (List.length cols))).
  Proof.
    intros Hp Hc Hr HT. assert (Hk : forall n, In n (map fst cols) -> exists k, kind_of n = Some k).
    { intros n Hn. apply in_map_iff in Hn. destruct Hn as (c & <- & Hin). apply registered_kind. now apply Hc. }
    assert (Hf : forall i, (i < List.length rows)%nat -> fields (nth i (map written_row rows) []) = nth i rows []).
    { intros i Hi. rewrite (nth_indep _ [] (written_row [])) by (now rewrite map_length). rewrite map_nth. destruct (Hr (nth i rows [])) as (L & G); [now apply nth_In|].
      apply row_fields; auto. intros E. rewrite E in L. destruct Hc as (Hne & _). destruct cols; [congruence|discriminate]. }
    assert (exists out, load (pre ++ written_header cols :: map written_row rows) = Ok out) as (out & E).
    { unfold LoadModel.load. rewrite skip_blank by auto. destruct (written_found cols (map written_row rows) Hc) as (h & -> & E1). cbn [bind]. rewrite E1. cbn [bind].
      destruct (kinds_all _ Hk) as (ks & E2). rewrite E2. cbn [bind]. destruct (kinds_ok _ _ E2) as (Lk & Nk). rewrite map_length in Lk, Nk. unfold parse_lines.
      set (kc := combine ks (map snd cols)). assert (Lc : List.length kc = List.length cols) by (unfold kc; rewrite combine_length, map_length, Lk; apply Nat.min_id).
      destruct (rows_all pyfloat literal_eval kc (map written_row rows) (repeat [] (List.length (map fst cols))) T) as (d & ->); [rewrite repeat_length, map_length; lia| | |cbn [bind]; eauto].
      - intros i Hi. rewrite map_length in Hi. etransitivity; [apply (f_equal (@List.length _)); exact (Hf i Hi)|]. rewrite Lc. apply Hr. now apply nth_In.
      - intros i c Hi Hc'. rewrite map_length in Hi. pose proof (Hf i Hi) as Hfi. match goal with |- context [fields ?x] => change (fields x) with (fields (nth i (map written_row rows) [])) end. rewrite Hfi. rewrite Lc in Hc'. unfold kc. rewrite combine_nth by (rewrite map_length; lia). cbn [fst snd].
        specialize (HT i c Hi Hc'). unfold column_value_at in HT. rewrite <- (map_nth fst) in HT. cbn [fst] in HT. rewrite (Nk c Hc') in HT. rewrite <- HT. f_equal.
        change None with (snd (@nil ascii, @None chars)) at 1. rewrite map_nth. reflexivity. }
    rewrite E. f_equal. destruct (load_ok _ _ E) as (h & rest & cols' & Hh & E1 & F1 & _ & Cc). 
    assert (Er : rest = map written_row rows /\ cols' = cols).
    { destruct (written_found cols (map written_row rows) Hc) as (h' & E2 & E3). apply found_header in Hh. rewrite skip_blank in Hh by auto. rewrite E2 in Hh. injection Hh as <- <-. split; auto. congruence. }
    destruct Er as (-> & ->). rewrite map_length in Cc. apply nth_ext with (d := ([], [])) (d' := ([], [])).
    - rewrite map_length, seq_length. rewrite <- (map_length fst out), F1, map_length. reflexivity.
    - intros c Hc'. assert (Lo : List.length out = List.length cols) by (rewrite <- (map_length fst out), F1, map_length; reflexivity). rewrite Lo in Hc'.
      destruct (Cc c Hc') as (Lv & Hv).
      rewrite nth_map_seq by auto. rewrite (surjective_pairing (nth c out ([], []))). f_equal.
      + rewrite <- (map_nth fst), F1. exact (map_nth fst cols ([], None) c).
      + rewrite <- (map_nth snd). cbn [snd]. change (snd ([] : chars, [] : list value)) with (@nil value). apply nth_ext with (d := VText []) (d' := VText []).
        * rewrite Lv, map_length, seq_length. reflexivity.
        * intros i Hi. rewrite Lv in Hi. specialize (Hv i (VText []) Hi). rewrite (Hf i Hi) in Hv. rewrite (HT i c Hi Hc') in Hv. injection Hv as <-.
          rewrite nth_map_seq by auto. reflexivity.
  Qed.
  Lemma load_no_header lines : (forall l, In l lines -> blank l) -> load lines = Raise ValueError.
  Proof. intros H. unfold LoadModel.load. rewrite no_header by auto. reflexivity. Qed.
  Lemma load_not_format lines header rest : header_at lines header rest ->
    (forall cols, ~ exists f, strip f = text "Format" /\ ~ In equals f /\ header = f ++ equals :: cols) -> load lines = Raise ValueError.
  Proof.
    intros Hh Hn. unfold LoadModel.load. rewrite (proj2 (found_header _ _ _) Hh). cbn [bind]. unfold parse_header. destruct (split1 equals header) as [f [cols|]] eqn:E; [|reflexivity].
    unfold chars_eqb. destruct (list_eq_dec ascii_dec (strip f) (text "Format")) as [Ef|]; [|reflexivity]. exfalso. apply (Hn cols). exists f. split; auto.
    clear - E. revert f cols E. induction header as [|c s IH]; intros f cols E; [discriminate|]. cbn [split1] in E. unfold ch_eqb in E. destruct (ascii_dec c equals) as [->|N].
    - injection E as <- <-. split; [intros []|reflexivity].
    - destruct (split1 equals s) as [a b]. injection E as <- ->. destruct (IH a cols eq_refl) as (A & ->). split; [intros [X|X]; auto|reflexivity].
  Qed.
  Lemma load_unknown lines header rest cols c : header_at lines header rest -> parse_header header = Ok cols -> In c cols -> ~ In (fst c) registered -> load lines = Raise ValueError.
  Proof.
    intros Hh Hp Hc Hk. unfold LoadModel.load. rewrite (proj2 (found_header _ _ _) Hh). cbn [bind]. rewrite Hp. cbn [bind]. rewrite (kinds_unknown _ (fst c)); [reflexivity|now apply in_map|now apply unregistered].
  Qed.
  Lemma load_count lines header rest cols i : header_at lines header rest -> parse_header header = Ok cols -> (i < List.length rest)%nat ->
    List.length (fields (nth i rest [])) <> List.length cols -> exists e, load lines = Raise e.
  Proof.
    intros Hh Hp Hi Hn. destruct (load lines) as [out|e] eqn:E; [|eauto]. exfalso. destruct (load_ok _ _ E) as (h & r & cs & Hh' & Hp' & _ & Hf & _).
    apply found_header in Hh, Hh'. rewrite Hh in Hh'. injection Hh' as <- <-. rewrite Hp in Hp'. injection Hp' as <-. now apply Hn, Hf.
  Qed.
End Files.

(* --- numbers --- *)
Open Scope R_scope.
Lemma span_digits a b : (forall c, In c a -> is_digit c = true) -> match b with [] => True | c :: _ => is_digit c = false end -> span is_digit (a ++ b) = (a, b).
Proof.
  intros Ha Hb. induction a as [|c a IH]; cbn [app span].
  - destruct b as [|c b]; auto. cbn [span]. now rewrite Hb.
  - rewrite (Ha c) by now left. rewrite IH; auto. intros x Hx. apply Ha. now right.
Qed.
Lemma digits1_at a b : digits a -> match b with [] => True | c :: _ => is_digit c = false end -> digits1 (a ++ b) = Some (a, b).
Proof. intros (Ne & Ha) Hb. unfold digits1. rewrite (span_digits a b Ha Hb). destruct a; [congruence|reflexivity]. Qed.
Lemma digits_val_whole s : digits_val s = whole s.
Proof.
  unfold digits_val. assert (G : forall s v, fold_left (fun v c => v * 10 + digit_val c) s v = v * 10 ^ List.length s + whole s).
  { clear. induction s as [|c s IH]; intros v; cbn [fold_left List.length whole pow]; [ring|]. rewrite IH. unfold digit_val. ring. }
  rewrite G. ring.
Qed.
Lemma frac_val_fraction s : frac_val s = fraction 1 s.
Proof.
  assert (G : forall s k, frac_val s / 10 ^ k = fraction (S k) s).
  { clear. induction s as [|c s IH]; intros k; cbn [frac_val fold_right fraction]; [unfold Rdiv; ring|]. fold (frac_val s). rewrite <- IH. unfold digit_val. cbn [pow]. field. apply pow_nonzero. lra. }
  rewrite <- G. cbn [pow]. field.
Qed.
(* seconds with an optional fraction *)
Definition stop (t : chars) : Prop := match t with [] => True | c :: _ => is_digit c = false /\ c <> dot end.
Lemma seconds_whole a t : digits a -> stop t -> seconds (a ++ t) = Some (whole a).
Proof.
  intros Ha Ht. unfold seconds. rewrite digits1_at; auto; [|destruct t; cbn in *; intuition]. destruct t as [|c t]; cbn [expect]; [now rewrite digits_val_whole|].
  rewrite (ch_eqb_neq c dot) by apply Ht. now rewrite digits_val_whole.
Qed.
Lemma seconds_fraction a b t : digits a -> (forall c, In c b -> is_digit c = true) -> match t with [] => True | c :: _ => is_digit c = false end -> seconds (a ++ dot :: b ++ t) = Some (whole a + fraction 1 b).
Proof.
  intros Ha Hb Ht. unfold seconds. rewrite (digits1_at a (dot :: b ++ t) Ha eq_refl). cbn [expect]. rewrite ch_eqb_refl. rewrite (span_digits b t Hb Ht). cbn [fst]. now rewrite digits_val_whole, frac_val_fraction.
Qed.
Lemma span_signs g d r : (forall c, In c g -> is_sign c = true) -> digits d -> span is_sign (g ++ d ++ r) = (g, d ++ r).
Proof.
  intros Hg Hd. induction g as [|c g IH]; cbn [app span].
  - destruct Hd as (Ne & Hd). destruct d as [|c d]; [congruence|]. cbn [app span]. assert (E : is_digit c = true) by (apply Hd; now left).
    assert (is_sign c = false) as ->; [|reflexivity]. unfold is_sign, ch_eqb. destruct (ascii_dec c minus) as [->|]; [discriminate|]. destruct (ascii_dec c plus) as [->|]; [discriminate|]. reflexivity.
  - rewrite (Hg c) by now left. rewrite IH; auto. intros x Hx. apply Hg. now right.
Qed.
Lemma sexagesimal_at sep g a b s x : (sep = colon \/ sep = dot) -> (forall c, In c g -> is_sign c = true) -> digits a -> digits b -> seconds s = Some x ->
  sexagesimal sep (g ++ a ++ sep :: b ++ sep :: s) = Some (g, whole a, whole b, x).
Proof.
  intros Hs Hg Ha Hb Hx. unfold sexagesimal. rewrite (span_signs g a _ Hg Ha).
  assert (Hd : forall r, match sep :: r with [] => True | c :: _ => is_digit c = false end) by (intros r; destruct Hs as [->| ->]; reflexivity).
  rewrite (digits1_at a (sep :: b ++ sep :: s) Ha (Hd s)). cbn [expect]. rewrite ch_eqb_refl. rewrite (digits1_at b (sep :: s) Hb (Hd s)). cbn [expect]. rewrite ch_eqb_refl, Hx. now rewrite !digits_val_whole.
Qed.
Lemma one_sign_in g : one_sign g -> forall c, In c g -> is_sign c = true.
Proof. intros [->|[->| ->]] c Hc; [destruct Hc|destruct Hc as [<-|[]]; reflexivity|destruct Hc as [<-|[]]; reflexivity]. Qed.
Lemma hour_value g a b s x : one_sign g -> digits a -> digits b -> seconds s = Some x ->
  hour_converter (g ++ a ++ colon :: b ++ colon :: s) = Ok (sign_of g * (2 * PI * ((whole a * 3600 + whole b * 60 + x) / 86400))).
Proof.
  intros Hg Ha Hb Hx. unfold hour_converter. rewrite (sexagesimal_at colon g a b s x); auto; [|now apply one_sign_in]. f_equal. unfold sign_of, chars_eqb.
  destruct (list_eq_dec ascii_dec g [minus]); field.
Qed.
Lemma deg_value g a b s x : one_sign g -> digits a -> digits b -> seconds s = Some x ->
  deg_converter (g ++ a ++ dot :: b ++ dot :: s) = Ok (sign_of g * (2 * PI * ((whole a * 3600 + whole b * 60 + x) / 1296000))).
Proof.
  intros Hg Ha Hb Hx. unfold deg_converter. rewrite (sexagesimal_at dot g a b s x); auto; [|now apply one_sign_in]. f_equal. unfold sign_of.
  destruct Hg as [->|[->| ->]]; cbn [rev app]; [destruct (list_eq_dec ascii_dec [] [minus]); [discriminate|]; field| |].
  - destruct (list_eq_dec ascii_dec [plus] [minus]); [discriminate|]. replace (ch_eqb plus minus) with false by reflexivity. field.
  - destruct (list_eq_dec ascii_dec [minus] [minus]); [|congruence]. replace (ch_eqb minus minus) with true by reflexivity. field.
Qed.
Lemma hour_signs g a b s x : (forall c, In c g -> is_sign c = true) -> (2 <= List.length g)%nat -> digits a -> digits b -> seconds s = Some x ->
  hour_converter (g ++ a ++ colon :: b ++ colon :: s) = Ok (2 * PI * ((whole a * 3600 + whole b * 60 + x) / 86400)).
Proof.
  intros Hg L Ha Hb Hx. unfold hour_converter. rewrite (sexagesimal_at colon g a b s x); auto. f_equal. unfold chars_eqb. destruct (list_eq_dec ascii_dec g [minus]) as [->|]; [cbn in L; lia|]. field.
Qed.
Lemma deg_signs g a b s x : (forall c, In c g -> is_sign c = true) -> digits a -> digits b -> seconds s = Some x ->
  deg_converter ((g ++ [minus]) ++ a ++ dot :: b ++ dot :: s) = Ok (- (2 * PI * ((whole a * 3600 + whole b * 60 + x) / 1296000))).
Proof.
  intros Hg Ha Hb Hx. unfold deg_converter. rewrite (sexagesimal_at dot (g ++ [minus]) a b s x); auto; [|intros c Hc; apply in_app_or in Hc; destruct Hc as [Hc|[<-|[]]]; [auto|reflexivity]].
  f_equal. rewrite rev_app_distr. cbn [rev app]. rewrite ch_eqb_refl. field.
Qed.
Lemma seconds_tail a b t : digits a -> (forall c, In c b -> is_digit c = true) -> match t with [] => True | c :: _ => is_digit c = false end -> seconds (a ++ dot :: b ++ t) = seconds (a ++ dot :: b).
Proof. intros Ha Hb Ht. rewrite (seconds_fraction a b t) by auto. rewrite <- (app_nil_r b) at 2. symmetry. apply seconds_fraction; auto. Qed.
Lemma seconds_of s f : digits s -> fraction_digits f -> seconds (s ++ match f with None => [] | Some f => dot :: f end) = Some (whole s + match f with None => 0 | Some f => fraction 1 f end).
Proof.
  intros Hs Hf. destruct f as [f|].
  - rewrite <- (app_nil_r f) at 1. apply seconds_fraction; auto.
  - rewrite (seconds_whole s []) by (auto; exact I). f_equal. ring.
Qed.
Lemma span_split p s : forall a b, span p s = (a, b) -> s = a ++ b /\ forall c, In c a -> p c = true.
Proof.
  induction s as [|x s IH]; intros a b E; cbn in E; [injection E as <- <-; split; [reflexivity|intros c []]|].
  destruct (p x) eqn:P; [|injection E as <- <-; split; [reflexivity|intros c []]].
  destruct (span p s) as [u v]. injection E as <- <-. destruct (IH u v eq_refl) as [-> H]. split; [reflexivity|]. intros c [<-|I]; auto.
Qed.
Lemma digits1_split s a b : digits1 s = Some (a, b) -> s = a ++ b /\ digits a.
Proof.
  unfold digits1. destruct (span is_digit s) as [u v] eqn:E. destruct u as [|x u]; [discriminate|]. intros H. injection H as <- <-.
  destruct (span_split _ _ _ _ E) as [-> K]. split; [reflexivity|]. split; [discriminate|exact K].
Qed.
Lemma expect_split c s t : expect c s = Some t -> s = c :: t.
Proof. destruct s as [|d s]; cbn; [discriminate|]. unfold ch_eqb. destruct (ascii_dec d c) as [->|]; [|discriminate]. congruence. Qed.
Lemma sexagesimal_some sep s x : sexagesimal sep s = Some x ->
  exists g a b c t, (forall d, In d g -> is_sign d = true) /\ digits a /\ digits b /\ digits c /\ s = angle_text sep g a b c None ++ t.
Proof.
  unfold sexagesimal. destruct (span is_sign s) as [g s1] eqn:E1. destruct (digits1 s1) as [[a s2]|] eqn:E2; [|discriminate].
  destruct (expect sep s2) as [s3|] eqn:E3; [|discriminate]. destruct (digits1 s3) as [[b s4]|] eqn:E4; [|discriminate].
  destruct (expect sep s4) as [s5|] eqn:E5; [|discriminate]. unfold seconds. destruct (digits1 s5) as [[c t]|] eqn:E6; [|discriminate]. intros _.
  destruct (span_split _ _ _ _ E1) as [-> G]. apply digits1_split in E2, E4, E6. apply expect_split in E3, E5.
  destruct E2 as [-> D1], E4 as [-> D2], E6 as [-> D3]. subst s2 s4. exists g, a, b, c, t. repeat (split; [assumption|]).
  unfold angle_text. repeat (rewrite <- app_assoc; cbn [app]). reflexivity.
Qed.
Lemma angle_nonempty sep g a b s f : digits a -> angle_text sep g a b s f <> [].
Proof. intros (Ne & _). unfold angle_text. destruct g; [|discriminate]. destruct a; [congruence|discriminate]. Qed.
Section Values.
  Context {Lit : Type}.
  Variable pyfloat : chars -> res R.
  Variable literal_eval : chars -> res Lit.
  Notation column_value := (column_value pyfloat literal_eval).
  Lemma cell_full k d f : f <> [] -> cell pyfloat literal_eval k d f = convert pyfloat literal_eval k f.
  Proof. destruct f; [congruence|reflexivity]. Qed.
  Lemma ra_value d g a b s f : one_sign g -> digits a -> digits b -> digits s -> fraction_digits f ->
    column_value "Ra" d (angle_text colon g a b s f) = Ok (VNum (2 * PI * (angle_seconds g a b s f / (24 * 3600)))).
  Proof.
    intros Hg Ha Hb Hs Hf. change (column_value "Ra" d (angle_text colon g a b s f)) with (cell pyfloat literal_eval KHour d (angle_text colon g a b s f)).
    rewrite cell_full by now apply angle_nonempty. unfold convert, angle_text. rewrite (hour_value g a b _ _ Hg Ha Hb (seconds_of s f Hs Hf)). cbn [bind]. unfold angle_seconds. do 2 f_equal. field.
  Qed.
  Lemma angle_refused d f : f <> [] ->
    ((forall g a b s t, (forall c, In c g -> is_sign c = true) -> digits a -> digits b -> digits s -> f <> angle_text colon g a b s None ++ t) ->
       column_value "Ra" d f = Raise ValueError) /\
    ((forall g a b s t, (forall c, In c g -> is_sign c = true) -> digits a -> digits b -> digits s -> f <> angle_text dot g a b s None ++ t) ->
       column_value "Dec" d f = Raise ValueError).
  Proof.
    intros N. split; intros H.
    - change (column_value "Ra" d f) with (cell pyfloat literal_eval KHour d f). unfold cell. destruct f as [|c f]; [easy|]. cbn [convert].
      unfold hour_converter. destruct (sexagesimal colon (c :: f)) as [x|] eqn:E; [|reflexivity].
      apply sexagesimal_some in E. destruct E as (g & a & b & s & t & G & A & B & S & Q). now apply H in Q.
    - change (column_value "Dec" d f) with (cell pyfloat literal_eval KDeg d f). unfold cell. destruct f as [|c f]; [easy|]. cbn [convert].
      unfold deg_converter. destruct (sexagesimal dot (c :: f)) as [x|] eqn:E; [|reflexivity].
      apply sexagesimal_some in E. destruct E as (g & a & b & s & t & G & A & B & S & Q). now apply H in Q.
  Qed.
  Lemma dec_value d g a b s f : one_sign g -> digits a -> digits b -> digits s -> fraction_digits f ->
    column_value "Dec" d (angle_text dot g a b s f) = Ok (VNum (2 * PI * (angle_seconds g a b s f / (360 * 3600)))).
  Proof.
    intros Hg Ha Hb Hs Hf. change (column_value "Dec" d (angle_text dot g a b s f)) with (cell pyfloat literal_eval KDeg d (angle_text dot g a b s f)).
    rewrite cell_full by now apply angle_nonempty. unfold convert, angle_text. rewrite (deg_value g a b _ _ Hg Ha Hb (seconds_of s f Hs Hf)). cbn [bind]. unfold angle_seconds. do 2 f_equal. field.
  Qed.
  Lemma ra_trailing d g a b s f t : one_sign g -> digits a -> digits b -> digits s -> fraction_digits (Some f) -> match t with [] => True | c :: _ => is_digit c = false end ->
    column_value "Ra" d (angle_text colon g a b s (Some f) ++ t) = column_value "Ra" d (angle_text colon g a b s (Some f)) /\
    column_value "Dec" d (angle_text dot g a b s (Some f) ++ t) = column_value "Dec" d (angle_text dot g a b s (Some f)).
  Proof.
    intros Hg Ha Hb Hs Hf Ht.
    assert (A : forall sep, angle_text sep g a b s (Some f) ++ t = g ++ a ++ sep :: b ++ sep :: (s ++ dot :: f ++ t)).
    { intros sep. unfold angle_text. rewrite <- !app_assoc. cbn [app]. rewrite <- !app_assoc. cbn [app]. rewrite <- !app_assoc. reflexivity. }
    assert (N : forall sep, angle_text sep g a b s (Some f) ++ t <> []) by (intros sep X; apply app_eq_nil in X; destruct X as [X _]; revert X; now apply angle_nonempty).
    rewrite (ra_value d g a b s (Some f)), (dec_value d g a b s (Some f)) by auto.
    change (column_value "Ra" d (angle_text colon g a b s (Some f) ++ t)) with (cell pyfloat literal_eval KHour d (angle_text colon g a b s (Some f) ++ t)).
    change (column_value "Dec" d (angle_text dot g a b s (Some f) ++ t)) with (cell pyfloat literal_eval KDeg d (angle_text dot g a b s (Some f) ++ t)).
    rewrite !cell_full by apply N. unfold convert. rewrite !A. rewrite (hour_value g a b _ _ Hg Ha Hb (seconds_fraction s f t Hs Hf Ht)), (deg_value g a b _ _ Hg Ha Hb (seconds_fraction s f t Hs Hf Ht)).
    cbn [bind]. unfold angle_seconds. split; do 2 f_equal; field.
  Qed.
  Lemma signs_differ d g a b s f : (forall c, In c g -> is_sign c = true) -> g <> [] -> digits a -> digits b -> digits s -> fraction_digits f ->
    column_value "Ra" d (angle_text colon (g ++ [minus]) a b s f) = column_value "Ra" d (angle_text colon [] a b s f) /\
    column_value "Dec" d (angle_text dot (g ++ [minus]) a b s f) = column_value "Dec" d (angle_text dot [minus] a b s f).
  Proof.
    intros Hg Ne Ha Hb Hs Hf. rewrite (ra_value d [] a b s f), (dec_value d [minus] a b s f) by (auto; unfold one_sign; auto).
    change (column_value "Ra" d (angle_text colon (g ++ [minus]) a b s f)) with (cell pyfloat literal_eval KHour d (angle_text colon (g ++ [minus]) a b s f)).
    change (column_value "Dec" d (angle_text dot (g ++ [minus]) a b s f)) with (cell pyfloat literal_eval KDeg d (angle_text dot (g ++ [minus]) a b s f)).
    rewrite !cell_full by now apply angle_nonempty. unfold convert, angle_text.
    assert (Hall : forall c, In c (g ++ [minus]) -> is_sign c = true) by (intros c Hc; apply in_app_or in Hc; destruct Hc as [Hc|[<-|[]]]; [auto|reflexivity]).
    assert (Hlen : (2 <= List.length (g ++ [minus]))%nat) by (rewrite app_length; destruct g; [congruence|cbn; lia]).
    rewrite (hour_signs (g ++ [minus]) a b _ _ Hall Hlen Ha Hb (seconds_of s f Hs Hf)).
    rewrite (deg_signs g a b _ _ Hg Ha Hb (seconds_of s f Hs Hf)). cbn [bind]. unfold angle_seconds, sign_of. destruct (list_eq_dec ascii_dec [] [minus]); [discriminate|]. destruct (list_eq_dec ascii_dec [minus] [minus]); [|congruence].
    split; do 2 f_equal; field.
  Qed.
  Lemma plain_values d f x : f <> [] ->
    column_value "Name" d f = Ok (VText f) /\ column_value "Type" d f = Ok (VText f) /\
    (pyfloat f = Ok x -> column_value "I" d f = Ok (VNum x) /\ column_value "ReferenceFrequency" d f = Ok (VNum x) /\
       column_value "MajorAxis" d f = Ok (VNum (x * PI / (180 * 3600))) /\ column_value "MinorAxis" d f = Ok (VNum (x * PI / (180 * 3600))) /\ column_value "Orientation" d f = Ok (VNum (x * PI / 180))) /\
    (forall l, literal_eval f = Ok l -> column_value "SpectralIndex" d f = Ok (VLit l)) /\
    exists b, column_value "LogarithmicSI" d f = Ok (VBool b) /\ (b = true <-> f = text "true").
  Proof.
    intros Hf.
    change (column_value "Name" d f) with (cell pyfloat literal_eval KText d f). change (column_value "Type" d f) with (cell pyfloat literal_eval KText d f).
    change (column_value "I" d f) with (cell pyfloat literal_eval KFloat d f). change (column_value "ReferenceFrequency" d f) with (cell pyfloat literal_eval KFloat d f).
    change (column_value "MajorAxis" d f) with (cell pyfloat literal_eval KArcsec d f). change (column_value "MinorAxis" d f) with (cell pyfloat literal_eval KArcsec d f).
    change (column_value "Orientation" d f) with (cell pyfloat literal_eval KAngle d f). change (column_value "SpectralIndex" d f) with (cell pyfloat literal_eval KLiteral d f).
    change (column_value "LogarithmicSI" d f) with (cell pyfloat literal_eval KTrue d f). rewrite !cell_full by auto. cbn [convert]. split; [reflexivity|]. split; [reflexivity|]. split.
    - intros ->. cbn [bind]. repeat split; do 2 f_equal; field.
    - split; [intros l ->; reflexivity|]. eexists. split; [reflexivity|]. unfold chars_eqb. destruct (list_eq_dec ascii_dec f (text "true")); split; congruence.
  Qed.
  Lemma empty_values name dflt : dflt <> [] ->
    column_value name (Some dflt) [] = column_value name None dflt.
  Proof. intros H. unfold LoadSpec.column_value, column_value_at. cbn [fst snd]. destruct (kind_of (text name)) as [k|]; [|reflexivity]. rewrite (cell_full k None dflt H). reflexivity. Qed.
  Lemma missing_values :
    column_value "Name" None [] = Ok (VText []) /\ column_value "Type" None [] = Ok (VText []) /\ column_value "I" None [] = Ok (VNum 0) /\ column_value "ReferenceFrequency" None [] = Ok (VNum 0) /\
    column_value "MajorAxis" None [] = Ok (VNum 0) /\ column_value "MinorAxis" None [] = Ok (VNum 0) /\ column_value "Orientation" None [] = Ok (VNum 0) /\
    column_value "Ra" None [] = Raise ValueError /\ column_value "Dec" None [] = Raise ValueError /\ column_value "SpectralIndex" None [] = Raise ValueError /\ column_value "LogarithmicSI" None [] = Raise ValueError.
  Proof. repeat split. Qed.
End Values.

Lemma split_plain x : ~ In comma x -> comma_split x = [x].
Proof. induction x as [|c x IH]; intros H; [reflexivity|]. cbn [comma_split]. rewrite ch_eqb_neq by (intros ->; apply H; now left). cbn [andb]. rewrite IH by (intros X; apply H; now right). reflexivity. Qed.
Lemma split_comma x r : ~ In comma x -> outside r = true -> comma_split (x ++ comma :: r) = x :: comma_split r.
Proof.
  intros H Hr. induction x as [|c x IH]; cbn [app comma_split]; [now rewrite ch_eqb_refl, Hr|]. rewrite ch_eqb_neq by (intros ->; apply H; now left). cbn [andb].
  rewrite IH by (intros X; apply H; now right). reflexivity.
Qed.
Lemma nested_split a b : ~ In comma a -> ~ In comma b ->
  fields (text "[[" ++ a ++ text "],[" ++ b ++ text "]]") = [text "[[" ++ a ++ text "]"; text "[" ++ b ++ text "]]"].
Proof.
  intros Ha Hb. unfold fields. replace (text "[[" ++ a ++ text "],[" ++ b ++ text "]]") with ((text "[[" ++ a ++ text "]") ++ comma :: (lbracket :: b ++ text "]]")).
  2:{ rewrite <- !app_assoc. reflexivity. }
  assert (Na : ~ In comma (text "[[" ++ a ++ text "]")).
  { intros X. apply in_app_or in X. destruct X as [X|X]; [vm_compute in X; intuition discriminate|]. apply in_app_or in X. destruct X as [X|X]; [auto|vm_compute in X; intuition discriminate]. }
  assert (Nb : ~ In comma (lbracket :: b ++ text "]]")).
  { intros X. apply in_inv in X. destruct X as [X|X]; [discriminate|]. apply in_app_or in X. destruct X as [X|X]; [auto|vm_compute in X; intuition discriminate]. }
  rewrite split_comma by (auto; reflexivity). rewrite split_plain by auto. cbn [map]. f_equal; [|f_equal].
  - apply strip_id. apply trimmed_app; try discriminate; split; reflexivity.
  - apply strip_id. apply (trimmed_app [lbracket] b (text "]]")); try discriminate; split; reflexivity.
Qed.
