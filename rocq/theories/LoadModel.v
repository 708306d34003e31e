(* Model of /repo/africanus/model/wsclean/file_model.py.  Text is a list of ASCII characters.  The Python functions float
   and ast.literal_eval are parameters; opening and closing the file is not modelled. *)
From Coq Require Import Reals String Ascii.
From Verif Require Import Prelude.
Close Scope string_scope. Open Scope list_scope.

Definition chars : Type := list ascii.
Definition text (s : string) : chars := list_ascii_of_string s.
Definition chars_eqb (a b : chars) : bool := if list_eq_dec ascii_dec a b then true else false.
Definition is_ascii (c : ascii) (n : nat) : bool := Nat.eqb (nat_of_ascii c) n.
(* str.isspace for ASCII: tab to carriage return, file to unit separator, space *)
Definition is_space (c : ascii) : bool :=
  let n := nat_of_ascii c in (Nat.leb 9 n && Nat.leb n 13 || Nat.leb 28 n && Nat.leb n 32)%bool.
Definition comma := ascii_of_nat 44.
Definition quote := ascii_of_nat 39.
Definition equals := ascii_of_nat 61.
Definition hash := ascii_of_nat 35.
Definition lbracket := ascii_of_nat 91.
Definition rbracket := ascii_of_nat 93.
Definition colon := ascii_of_nat 58.
Definition dot := ascii_of_nat 46.
Definition minus := ascii_of_nat 45.
Definition plus := ascii_of_nat 43.
Definition ch_eqb (a b : ascii) : bool := if ascii_dec a b then true else false.
(* str.strip *)
Fixpoint lstrip (s : chars) : chars := match s with [] => [] | c :: s' => if is_space c then lstrip s' else s end.
Definition strip (s : chars) : chars := rev (lstrip (rev (lstrip s))).
(* str.split on one character *)
Fixpoint split_on (sep : ascii) (s : chars) : list chars :=
  match s with
  | [] => [[]]
  | c :: s' =>
      if ch_eqb c sep then [] :: split_on sep s'
      else match split_on sep s' with [] => [[c]] | f :: fs => (c :: f) :: fs end
  end.
(* s.split(sep, 1): the part before the first separator and, if there is one, the part after it *)
Fixpoint split1 (sep : ascii) (s : chars) : chars * option chars :=
  match s with
  | [] => ([], None)
  | c :: s' => if ch_eqb c sep then ([], Some s') else let '(a, b) := split1 sep s' in (c :: a, b)
  end.

(* line 72, the lookahead of _COMMA_SPLIT_RE: going right, an opening bracket or the end comes before a closing bracket *)
Fixpoint outside (s : chars) : bool :=
  match s with
  | [] => true
  | c :: s' => if ch_eqb c rbracket then false else if ch_eqb c lbracket then true else outside s'
  end.
(* re.split(_COMMA_SPLIT_RE, line).  The spaces after a separator, which the expression swallows, stay with the following
   part: the caller strips every part. *)
Fixpoint comma_split (s : chars) : list chars :=
  match s with
  | [] => [[]]
  | c :: s' =>
      if (ch_eqb c comma && outside s')%bool then [] :: comma_split s'
      else match comma_split s' with [] => [[c]] | f :: fs => (c :: f) :: fs end
  end.

(* lines 74-76: the optional group of _COL_HEADER_RE up to the end of the text: spaces, =, spaces, a quoted default, spaces *)
Fixpoint quoted_end (s : chars) : option chars :=   (* shortest d with s = d ' spaces *)
  match s with
  | [] => None
  | c :: s' =>
      if (ch_eqb c quote && forallb is_space s')%bool then Some []
      else match quoted_end s' with None => None | Some d => Some (c :: d) end
  end.
Definition default_group (s : chars) : option chars :=
  match lstrip s with
  | c :: s' => if ch_eqb c equals then match lstrip s' with q :: s'' => if ch_eqb q quote then quoted_end s'' else None | [] => None end else None
  | [] => None
  end.
(* the shortest name followed by the optional group and the end; the columns are stripped and have no line breaks *)
Fixpoint col_header (s : chars) : chars * option chars :=
  match default_group s with
  | Some d => ([], Some d)
  | None => match s with [] => ([], None) | c :: s' => let '(n, d) := col_header s' in (c :: n, d) end
  end.
(* lines 79-97 *)
Definition parse_col_descriptor (s : chars) : list (chars * option chars) := map (fun c => col_header (strip c)) (split_on comma s).
(* lines 100-106: without an equals sign the unpacking raises *)
Definition parse_header (header : chars) : res (list (chars * option chars)) :=
  match split1 equals header with
  | (_, None) => Raise ValueError
  | (format_str, Some col_desc) => if chars_eqb (strip format_str) (text "Format") then Ok (parse_col_descriptor (strip col_desc)) else Raise ValueError
  end.

(* lines 55-68: the registered columns *)
Inductive kind : Type := KText | KHour | KDeg | KFloat | KLiteral | KTrue | KArcsec | KAngle.
Definition kind_of (name : chars) : option kind :=
  if chars_eqb name (text "Name") then Some KText
  else if chars_eqb name (text "Type") then Some KText
  else if chars_eqb name (text "Ra") then Some KHour
  else if chars_eqb name (text "Dec") then Some KDeg
  else if chars_eqb name (text "I") then Some KFloat
  else if chars_eqb name (text "SpectralIndex") then Some KLiteral
  else if chars_eqb name (text "LogarithmicSI") then Some KTrue
  else if chars_eqb name (text "ReferenceFrequency") then Some KFloat
  else if chars_eqb name (text "MajorAxis") then Some KArcsec
  else if chars_eqb name (text "MinorAxis") then Some KArcsec
  else if chars_eqb name (text "Orientation") then Some KAngle
  else None.

(* digits *)
Definition is_digit (c : ascii) : bool := let n := nat_of_ascii c in (Nat.leb 48 n && Nat.leb n 57)%bool.
Definition digit_val (c : ascii) : R := INR (nat_of_ascii c - 48).
Fixpoint span (p : ascii -> bool) (s : chars) : chars * chars :=
  match s with [] => ([], []) | c :: s' => if p c then let '(a, b) := span p s' in (c :: a, b) else ([], s) end.
(* float of a string of digits, and of digits.digits *)
Definition digits_val (s : chars) : R := fold_left (fun v c => v * 10 + digit_val c)%R s 0%R.
Definition frac_val (s : chars) : R := fold_right (fun c v => (digit_val c + v) / 10)%R 0%R s.
Definition is_sign (c : ascii) : bool := (ch_eqb c minus || ch_eqb c plus)%bool.
(* one or more digits *)
Definition digits1 (s : chars) : option (chars * chars) := match span is_digit s with ([], _) => None | p => Some p end.
Definition expect (c : ascii) (s : chars) : option chars := match s with d :: s' => if ch_eqb d c then Some s' else None | [] => None end.
(* \d+\.?\d* *)
Definition seconds (s : chars) : option R :=
  match digits1 s with
  | None => None
  | Some (a, rest) => match expect dot rest with None => Some (digits_val a) | Some rest' => Some (digits_val a + frac_val (fst (span is_digit rest')))%R end
  end.
(* both regular expressions: signs, two groups of digits each followed by sep, seconds; anything may follow *)
Definition sexagesimal (sep : ascii) (s : chars) : option (chars * R * R * R) :=
  let '(sign, s1) := span is_sign s in
  match digits1 s1 with None => None | Some (a, s2) =>
  match expect sep s2 with None => None | Some s3 =>
  match digits1 s3 with None => None | Some (b, s4) =>
  match expect sep s4 with None => None | Some s5 =>
  match seconds s5 with None => None | Some c => Some (sign, digits_val a, digits_val b, c) end end end end end.
Open Scope R_scope.
(* lines 22-35: the sign group is the whole run of signs *)
Definition hour_converter (s : chars) : res R :=
  match sexagesimal colon s with
  | None => Raise ValueError
  | Some (sign, hours, mins, secs) =>
      let value := hours / 24 in
      let value := value + mins / (24 * 60) in
      let value := value + secs / (24 * 60 * 60) in
      let value := if chars_eqb sign [minus] then - value else value in
      Ok (2 * PI * value)
  end.
(* lines 38-51: the sign group is the last sign *)
Definition deg_converter (s : chars) : res R :=
  match sexagesimal dot s with
  | None => Raise ValueError
  | Some (sign, degs, mins, secs) =>
      let value := degs / 360 in
      let value := value + mins / (360 * 60) in
      let value := value + secs / (360 * 60 * 60) in
      let value := match rev sign with c :: _ => if ch_eqb c minus then - value else value | [] => value end in
      Ok (2 * PI * value)
  end.

Section Load.
  Context {Lit : Type}.
  Variable pyfloat : chars -> res R.
  Variable literal_eval : chars -> res Lit.
  Inductive value : Type := VText (s : chars) | VNum (x : R) | VBool (b : bool) | VLit (l : Lit).
  Definition convert (k : kind) (s : chars) : res value :=
    match k with
    | KText => Ok (VText s)
    | KHour => do! x <- hour_converter s; Ok (VNum x)
    | KDeg => do! x <- deg_converter s; Ok (VNum x)
    | KFloat => do! x <- pyfloat s; Ok (VNum x)
    | KLiteral => do! x <- literal_eval s; Ok (VLit x)
    | KTrue => Ok (VBool (chars_eqb s (text "true")))
    | KArcsec => do! x <- pyfloat s; Ok (VNum (x / 3600 * (PI / 180)))
    | KAngle => do! x <- pyfloat s; Ok (VNum (x * (PI / 180)))
    end.
  (* lines 124-134: conv() and then conv of its result; converters that need an argument raise TypeError, which becomes
     ValueError *)
  Definition convert_nothing (k : kind) : res value :=
    match k with
    | KText => Ok (VText [])
    | KFloat | KArcsec | KAngle => Ok (VNum 0)
    | KHour | KDeg | KLiteral | KTrue => Raise ValueError
    end.
  (* lines 121-139 *)
  Definition cell (k : kind) (default : option chars) (comp : chars) : res value :=
    match comp with
    | [] => match default with None => convert_nothing k | Some d => convert k d end
    | _ => convert k comp
    end.
  Fixpoint cells (cols : list (kind * option chars)) (components : list chars) (source_data : list (list value)) : res (list (list value)) :=
    match cols, components, source_data with
    | (k, default) :: cols', comp :: components', data_list :: source_data' =>
        do! v <- cell k default comp;
        do! rest <- cells cols' components' source_data';
        Ok ((data_list ++ [v]) :: rest)
    | _, _, _ => Ok source_data
    end.
  (* lines 112-118 *)
  Definition parse_line (cols : list (kind * option chars)) (line : chars) (source_data : list (list value)) : res (list (list value)) :=
    let components := map strip (comma_split line) in
    if negb (Nat.eqb (List.length components) (List.length cols)) then Raise ValueError
    else cells cols components source_data.
  Fixpoint parse_lines_from (cols : list (kind * option chars)) (lines : list chars) (source_data : list (list value)) : res (list (list value)) :=
    match lines with
    | [] => Ok source_data
    | line :: rest => do! d <- parse_line cols line source_data; parse_lines_from cols rest d
    end.
  (* lines 109-141 *)
  Definition parse_lines (names : list chars) (cols : list (kind * option chars)) (lines : list chars) : res (list (chars * list value)) :=
    do! d <- parse_lines_from cols lines (repeat [] (List.length names));
    Ok (combine names d).
  (* lines 191-199: the first line with something before its comment; then the remaining lines *)
  Fixpoint find_header (lines : list chars) : res (chars * list chars) :=
    match lines with
    | [] => Raise ValueError
    | line :: rest => match strip (fst (split1 hash line)) with [] => find_header rest | header => Ok (header, rest) end
    end.
  Fixpoint all_kinds (names : list chars) : res (list kind) :=
    match names with
    | [] => Ok []
    | n :: rest => match kind_of n with None => Raise ValueError | Some k => do! ks <- all_kinds rest; Ok (k :: ks) end
    end.
  (* lines 176-211 on the lines of the file *)
  Definition load (lines : list chars) : res (list (chars * list value)) :=
    do! (header, rest) <- find_header lines;
    do! cols <- parse_header header;
    do! kinds <- all_kinds (map fst cols);
    parse_lines (map fst cols) (combine kinds (map snd cols)) rest.
End Load.
