(* C55: reading a component file *)
From Coq Require Import Reals String Ascii Lra Lia.
From Verif Require Import Prelude LoadModel LoadSpec LoadProofs LoadProofs2 LoadProofs3.
Close Scope string_scope. Open Scope list_scope.

(* A file of blank or comment lines, a header of registered columns and rows of fields (commas only inside brackets) is
   read back: the columns in header order, each holding the value of its field on every row. *)
Theorem C55_written_file : forall Lit (pyfloat : chars -> res R) (literal_eval : chars -> res Lit) pre cols rows (T : nat -> nat -> value),
  (forall l, In l pre -> blank l) -> good_columns cols ->
  (forall row, In row rows -> List.length row = List.length cols /\ forall f, In f row -> good_field f) ->
  (forall i c, (i < List.length rows)%nat -> (c < List.length cols)%nat ->
     column_value_at pyfloat literal_eval (nth c cols ([], None)) (nth c (nth i rows []) []) = Ok (T i c)) ->
  load pyfloat literal_eval (pre ++ written_header cols :: map written_row rows) =
  Ok (map (fun c => (fst (nth c cols ([], None)), map (fun i => T i c) (seq 0 (List.length rows)))) (seq 0 (List.length cols))).
Proof. intros Lit pyfloat literal_eval. exact (load_written pyfloat literal_eval). Qed.
(* Whatever the file, a successful load has one value per line in every column, and value i of column c comes from field c
   of line i: nothing is dropped, duplicated or moved to another source. *)
Theorem C55_aligned : forall Lit (pyfloat : chars -> res R) (literal_eval : chars -> res Lit) lines out, load pyfloat literal_eval lines = Ok out ->
  exists header rest cols, header_at lines header rest /\ parse_header header = Ok cols /\ map fst out = map fst cols /\
    (forall i, (i < List.length rest)%nat -> List.length (fields (nth i rest [])) = List.length cols) /\
    forall c, (c < List.length cols)%nat -> List.length (nth c (map snd out) []) = List.length rest /\
      forall i v0, (i < List.length rest)%nat -> column_value_at pyfloat literal_eval (nth c cols ([], None)) (nth c (fields (nth i rest [])) []) = Ok (nth i (nth c (map snd out) []) v0).
Proof. intros Lit pyfloat literal_eval. exact (load_ok pyfloat literal_eval). Qed.
(* A file without a header, with a first line that is not "Format = ...", or with an unregistered column is refused. *)
Theorem C55_bad_header : forall Lit (pyfloat : chars -> res R) (literal_eval : chars -> res Lit) lines,
  ((forall l, In l lines -> blank l) -> load pyfloat literal_eval lines = Raise ValueError) /\
  (forall header rest, header_at lines header rest -> (forall cols, ~ exists f, strip f = text "Format" /\ ~ In equals f /\ header = f ++ equals :: cols) -> load pyfloat literal_eval lines = Raise ValueError) /\
  (forall header rest cols c, header_at lines header rest -> parse_header header = Ok cols -> In c cols -> ~ In (fst c) registered -> load pyfloat literal_eval lines = Raise ValueError).
Proof.
  intros Lit pyfloat literal_eval lines. split; [apply load_no_header|]. split; [apply load_not_format|apply load_unknown].
Qed.
(* A line with too few or too many fields, such as an empty line at the end, is never skipped or padded. *)
Theorem C55_wrong_count : forall Lit (pyfloat : chars -> res R) (literal_eval : chars -> res Lit) lines header rest cols i,
  header_at lines header rest -> parse_header header = Ok cols -> (i < List.length rest)%nat -> List.length (fields (nth i rest [])) <> List.length cols ->
  exists e, load pyfloat literal_eval lines = Raise e.
Proof. intros Lit pyfloat literal_eval. exact (load_count pyfloat literal_eval). Qed.
(* A row of fields splits back into them: commas inside brackets do not separate. *)
Theorem C55_fields : forall fs, fs <> [] -> (forall f, In f fs -> good_field f) -> fields (written_row fs) = fs.
Proof. exact row_fields. Qed.
(* Nested brackets are split at the comma between the inner ones. *)
Theorem C55_nested_refuted : forall a b, ~ In comma a -> ~ In comma b ->
  fields (text "[[" ++ a ++ text "],[" ++ b ++ text "]]") = [text "[[" ++ a ++ text "]"; text "[" ++ b ++ text "]]"].
Proof. exact nested_split. Qed.
Open Scope R_scope.
(* Right ascensions are hours, minutes and seconds of a turn; declinations degrees, minutes and seconds. *)
Theorem C55_right_ascension : forall Lit (pyfloat : chars -> res R) (literal_eval : chars -> res Lit) d g a b s f,
  one_sign g -> digits a -> digits b -> digits s -> fraction_digits f ->
  column_value pyfloat literal_eval "Ra" d (angle_text colon g a b s f) = Ok (VNum (2 * PI * (angle_seconds g a b s f / (24 * 3600)))).
Proof. intros Lit pyfloat literal_eval. exact (ra_value pyfloat literal_eval). Qed.
Theorem C55_declination : forall Lit (pyfloat : chars -> res R) (literal_eval : chars -> res Lit) d g a b s f,
  one_sign g -> digits a -> digits b -> digits s -> fraction_digits f ->
  column_value pyfloat literal_eval "Dec" d (angle_text dot g a b s f) = Ok (VNum (2 * PI * (angle_seconds g a b s f / (360 * 3600)))).
Proof. intros Lit pyfloat literal_eval. exact (dec_value pyfloat literal_eval). Qed.
(* A text that does not begin with an angle is refused. *)
Theorem C55_not_an_angle : forall Lit (pyfloat : chars -> res R) (literal_eval : chars -> res Lit) d f, f <> [] ->
  ((forall g a b s t, (forall c, In c g -> is_sign c = true) -> digits a -> digits b -> digits s -> f <> angle_text colon g a b s None ++ t) ->
     column_value pyfloat literal_eval "Ra" d f = Raise ValueError) /\
  ((forall g a b s t, (forall c, In c g -> is_sign c = true) -> digits a -> digits b -> digits s -> f <> angle_text dot g a b s None ++ t) ->
     column_value pyfloat literal_eval "Dec" d f = Raise ValueError).
Proof. intros Lit pyfloat literal_eval. exact (angle_refused pyfloat literal_eval). Qed.
(* The other columns: text as it stands, numbers, arcseconds and degrees in radians, literals, and true. *)
Theorem C55_values : forall Lit (pyfloat : chars -> res R) (literal_eval : chars -> res Lit) d f x, f <> [] ->
  let value_in name := column_value pyfloat literal_eval name d f in
  value_in "Name"%string = Ok (VText f) /\ value_in "Type"%string = Ok (VText f) /\
  (pyfloat f = Ok x -> value_in "I"%string = Ok (VNum x) /\ value_in "ReferenceFrequency"%string = Ok (VNum x) /\
     value_in "MajorAxis"%string = Ok (VNum (x * PI / (180 * 3600))) /\ value_in "MinorAxis"%string = Ok (VNum (x * PI / (180 * 3600))) /\ value_in "Orientation"%string = Ok (VNum (x * PI / 180))) /\
  (forall l, literal_eval f = Ok l -> value_in "SpectralIndex"%string = Ok (VLit l)) /\
  exists b, value_in "LogarithmicSI"%string = Ok (VBool b) /\ (b = true <-> f = text "true").
Proof. intros Lit pyfloat literal_eval. exact (plain_values pyfloat literal_eval). Qed.
(* An empty field takes the header's default as if it had been written there; without one it is an empty text, zero, or refused. *)
Theorem C55_defaults : forall Lit (pyfloat : chars -> res R) (literal_eval : chars -> res Lit),
  let value_in name := column_value pyfloat literal_eval name in
  (forall name dflt, dflt <> [] -> value_in name (Some dflt) [] = value_in name None dflt) /\
  value_in "Name"%string None [] = Ok (VText []) /\ value_in "Type"%string None [] = Ok (VText []) /\ value_in "I"%string None [] = Ok (VNum 0) /\ value_in "ReferenceFrequency"%string None [] = Ok (VNum 0) /\
  value_in "MajorAxis"%string None [] = Ok (VNum 0) /\ value_in "MinorAxis"%string None [] = Ok (VNum 0) /\ value_in "Orientation"%string None [] = Ok (VNum 0) /\
  value_in "Ra"%string None [] = Raise ValueError /\ value_in "Dec"%string None [] = Raise ValueError /\ value_in "SpectralIndex"%string None [] = Raise ValueError /\ value_in "LogarithmicSI"%string None [] = Raise ValueError.
Proof. intros Lit pyfloat literal_eval. split; [exact (empty_values pyfloat literal_eval)|exact (missing_values pyfloat literal_eval)]. Qed.
(* Text after a complete angle is ignored instead of refused. *)
Theorem C55_trailing_refuted : forall Lit (pyfloat : chars -> res R) (literal_eval : chars -> res Lit) d g a b s f t,
  one_sign g -> digits a -> digits b -> digits s -> fraction_digits (Some f) -> match t with [] => True | c :: _ => is_digit c = false end ->
  column_value pyfloat literal_eval "Ra" d (angle_text colon g a b s (Some f) ++ t) = column_value pyfloat literal_eval "Ra" d (angle_text colon g a b s (Some f)) /\
  column_value pyfloat literal_eval "Dec" d (angle_text dot g a b s (Some f) ++ t) = column_value pyfloat literal_eval "Dec" d (angle_text dot g a b s (Some f)).
Proof. intros Lit pyfloat literal_eval. exact (ra_trailing pyfloat literal_eval). Qed.
(* Several signs ending in a minus: the right ascension is read as positive, the declination as negative. *)
Theorem C55_signs_refuted : forall Lit (pyfloat : chars -> res R) (literal_eval : chars -> res Lit) d g a b s f,
  (forall c, In c g -> is_sign c = true) -> g <> [] -> digits a -> digits b -> digits s -> fraction_digits f ->
  column_value pyfloat literal_eval "Ra" d (angle_text colon (g ++ [minus]) a b s f) = column_value pyfloat literal_eval "Ra" d (angle_text colon [] a b s f) /\
  column_value pyfloat literal_eval "Dec" d (angle_text dot (g ++ [minus]) a b s f) = column_value pyfloat literal_eval "Dec" d (angle_text dot [minus] a b s f).
Proof. intros Lit pyfloat literal_eval. exact (signs_differ pyfloat literal_eval). Qed.
Print Assumptions C55_written_file.
Print Assumptions C55_aligned.
Print Assumptions C55_bad_header.
Print Assumptions C55_wrong_count.
Print Assumptions C55_fields.
Print Assumptions C55_nested_refuted.
Print Assumptions C55_right_ascension.
Print Assumptions C55_declination.
Print Assumptions C55_not_an_angle.
Print Assumptions C55_values.
Print Assumptions C55_defaults.
Print Assumptions C55_trailing_refuted.
Print Assumptions C55_signs_refuted.

(* non-vacuity *)
Definition demo_cols : list (chars * option chars) := [(text "Name", None); (text "SpectralIndex", Some (text "[]")); (text "LogarithmicSI", None)].
Definition demo_rows : list (list chars) := [[text "s0"; text "[1,2]"; text "true"]; [text "s1"; []; text "false"]].
Definition demo_lit (s : chars) : res nat := Ok (List.length s).
Example C55_demo_columns : good_columns demo_cols.
Proof.
  split; [discriminate|]. intros c Hc. repeat (destruct Hc as [<-|Hc]; [split; [vm_compute; tauto|cbn; try exact I; repeat split; intros X; repeat (destruct X as [X|X]; [discriminate|]); exact X]|]). destruct Hc.
Qed.
Example C55_demo_rows : forall row, In row demo_rows -> List.length row = List.length demo_cols /\ forall f, In f row -> good_field f.
Proof.
  intros row Hr. repeat (destruct Hr as [<-|Hr]; [split; [reflexivity|intros f Hf; repeat (destruct Hf as [<-|Hf]; [split; [cbn; repeat split; discriminate|split; vm_compute; auto]|]); destruct Hf]|]). destruct Hr.
Qed.
Example C55_demo_load : forall pyfloat, load pyfloat demo_lit ([text "# a comment"] ++ written_header demo_cols :: map written_row demo_rows) =
  Ok [(text "Name", [VText (text "s0"); VText (text "s1")]); (text "SpectralIndex", [VLit 5%nat; VLit 2%nat]); (text "LogarithmicSI", [VBool true; VBool false])].
Proof. intros pyfloat. vm_compute. reflexivity. Qed.
Example C55_demo_angle : one_sign [minus] /\ digits (text "12") /\ fraction_digits (Some (text "5")).
Proof.
  split; [unfold one_sign; auto|]. split; [split; [discriminate|]|]; intros c Hc; repeat (destruct Hc as [<-|Hc]; [reflexivity|]); destruct Hc.
Qed.
Example C55_demo_not_an_angle : forall pyfloat, column_value pyfloat demo_lit "Ra" None (text "12h30m") = Raise ValueError.
Proof. reflexivity. Qed.
Example C55_demo_blank_end : exists e, forall pyfloat, load pyfloat demo_lit (written_header demo_cols :: map written_row demo_rows ++ [[]]) = Raise e.
Proof. exists ValueError. intros. vm_compute. reflexivity. Qed.
