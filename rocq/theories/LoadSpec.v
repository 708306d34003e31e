(* Specification vocabulary for C55: how a component file is written *)
From Coq Require Import Reals String Ascii.
From Verif Require Import Prelude LoadModel.
Close Scope string_scope. Open Scope list_scope.

(* a field: commas only inside brackets, brackets closed and not nested *)
Fixpoint field_from (inside : bool) (s : chars) : Prop :=
  match s with
  | [] => inside = false
  | c :: s' =>
      if inside then c <> lbracket /\ (if ascii_dec c rbracket then field_from false s' else field_from true s')
      else c <> comma /\ c <> rbracket /\ (if ascii_dec c lbracket then field_from true s' else field_from false s')
  end.
(* no space at either end *)
Definition trimmed (s : chars) : Prop :=
  match s with [] => True | c :: _ => is_space c = false end /\ match rev s with [] => True | c :: _ => is_space c = false end.
Definition good_field (s : chars) : Prop := field_from false s /\ trimmed s.
(* fields written with a separator between them *)
Fixpoint join (sep : chars) (fs : list chars) : chars :=
  match fs with [] => [] | [f] => f | f :: fs' => f ++ sep ++ join sep fs' end.
(* a line of fields *)
Definition written_row (fs : list chars) : chars := join (text ", ") fs ++ [ascii_of_nat 10].
(* a column of the header: a name with an optional default in quotes *)
Definition written_column (c : chars * option chars) : chars :=
  match snd c with None => fst c | Some d => fst c ++ text "='" ++ d ++ text "'" end.
Definition written_header (cols : list (chars * option chars)) : chars := text "Format = " ++ join (text ", ") (map written_column cols) ++ [ascii_of_nat 10].
Definition good_default (d : option chars) : Prop := match d with None => True | Some d => ~ In quote d /\ ~ In comma d /\ ~ In hash d end.
(* the columns that can be read *)
Definition registered : list chars :=
  map text ["Name"; "Type"; "Ra"; "Dec"; "I"; "SpectralIndex"; "LogarithmicSI"; "ReferenceFrequency"; "MajorAxis"; "MinorAxis"; "Orientation"]%string.
Definition good_columns (cols : list (chars * option chars)) : Prop :=
  cols <> [] /\ forall c, In c cols -> In (fst c) registered /\ good_default (snd c).
(* lines with nothing before their comment *)
Definition blank (line : chars) : Prop := forall c, In c (fst (split1 hash line)) -> is_space c = true.
(* decimal numerals *)
Definition digits (s : chars) : Prop := s <> [] /\ forall c, In c s -> is_digit c = true.
Open Scope R_scope.
(* the numbers written by digits before and after a decimal point *)
Fixpoint whole (s : chars) : R := match s with [] => 0 | c :: s' => INR (nat_of_ascii c - 48) * 10 ^ List.length s' + whole s' end.
Fixpoint fraction (k : nat) (s : chars) : R := match s with [] => 0 | c :: s' => INR (nat_of_ascii c - 48) / 10 ^ k + fraction (S k) s' end.
(* an optional sign *)
Definition one_sign (s : chars) : Prop := s = [] \/ s = [plus] \/ s = [minus].
Definition sign_of (s : chars) : R := if list_eq_dec ascii_dec s [minus] then -1 else 1.
(* what a field of a named column is read as *)
Definition column_value_at {Lit} (pyfloat : chars -> res R) (literal_eval : chars -> res Lit) (col : chars * option chars) (f : chars) : res value :=
  match kind_of (fst col) with Some k => cell pyfloat literal_eval k (snd col) f | None => Raise ValueError end.
Definition column_value {Lit} (pyfloat : chars -> res R) (literal_eval : chars -> res Lit) (name : string) (default : option chars) (f : chars) : res value :=
  column_value_at pyfloat literal_eval (text name, default) f.
(* the fields of a line *)
Definition fields (line : chars) : list chars := map strip (comma_split line).
(* the header and the lines after it *)
Definition header_at (lines : list chars) (header : chars) (rest : list chars) : Prop :=
  exists pre line, lines = pre ++ line :: rest /\ (forall l, In l pre -> blank l) /\ ~ blank line /\ header = strip (fst (split1 hash line)).
(* an angle written as sign, two whole numbers and seconds with an optional fraction *)
Definition angle_text (sep : ascii) (sign a b s : chars) (f : option chars) : chars :=
  sign ++ a ++ sep :: b ++ sep :: s ++ match f with None => [] | Some f => dot :: f end.
Definition fraction_digits (f : option chars) : Prop := match f with None => True | Some f => forall c, In c f -> is_digit c = true end.
(* in seconds *)
Definition angle_seconds (sign a b s : chars) (f : option chars) : R :=
  sign_of sign * (whole a * 3600 + whole b * 60 + (whole s + match f with None => 0 | Some f => fraction 1 f end)).
