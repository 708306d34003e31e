(* Model of /repo/africanus/util/beams.py.  Numbers are exact.  Strings are ASCII. *)
From Coq Require Import Reals String Ascii DecimalString.
From Verif Require Import Prelude.
Close Scope R_scope.
Open Scope nat_scope.

(* a header card *)
Inductive card : Type := HInt (z : Z) | HReal (x : R) | HStr (s : string).
Definition header : Type := string -> option card.
(* arithmetic with a card *)
Definition as_num (c : card) : res R := match c with HInt z => Ok (IZR z) | HReal x => Ok x | HStr _ => Raise TypeError end.
(* a card used as the end of a range *)
Definition as_int (c : option card) : res Z := match c with Some (HInt z) => Ok z | _ => Raise TypeError end.
(* 'KEY%d' % n *)
Definition decimal (n : nat) : string := NilEmpty.string_of_uint (Nat.to_uint n).
Definition key (s : string) (n : nat) : string := (s ++ decimal n)%string.

(* str.strip and str.upper and str.lower *)
Definition is_space (c : ascii) : bool := let n := nat_of_ascii c in (Nat.leb 9 n && Nat.leb n 13) || (Nat.leb 28 n && Nat.leb n 32).
Fixpoint lstrip (s : string) : string := match s with EmptyString => s | String c r => if is_space c then lstrip r else s end.
Fixpoint rstrip (s : string) : string :=
  match s with
  | EmptyString => s
  | String c r => match rstrip r with EmptyString => if is_space c then EmptyString else String c EmptyString | t => String c t end
  end.
Definition strip (s : string) : string := rstrip (lstrip s).
Definition up (c : ascii) : ascii := let n := nat_of_ascii c in if Nat.leb 97 n && Nat.leb n 122 then ascii_of_nat (n - 32) else c.
Definition low (c : ascii) : ascii := let n := nat_of_ascii c in if Nat.leb 65 n && Nat.leb n 90 then ascii_of_nat (n + 32) else c.
Fixpoint smap (f : ascii -> ascii) (s : string) : string := match s with EmptyString => EmptyString | String c r => String (f c) (smap f r) end.
Definition upper := smap up.
Definition lower := smap low.

(* a list comprehension over axes, left to right *)
Fixpoint comprehend {A B} (f : A -> res B) (l : list A) : res (list B) :=
  match l with [] => Ok [] | a :: l => do! b <- f a; do! bs <- comprehend f l; Ok (b :: bs) end.

(* lines 13-32 FitsAxes.__init__ with a header *)
Record fits_axes : Type := { naxis : list (option card); ctype : list string; crval : list card; crpix : list R; cdelt : list card; cunit : list string }.
Definition fits_init (h : header) : res fits_axes :=
  do! ndims <- match h "NAXIS"%string with None => Raise KeyError | Some c => as_int (Some c) end;
  let axr := seq 1 (Z.to_nat ndims) in
  let na := map (fun n => h (key "NAXIS" n)) axr in
  (* header.get('CTYPE%d' % n, n).strip(): a number has no strip *)
  do! ct <- comprehend (fun n => match h (key "CTYPE" n) with Some (HStr s) => Ok (strip s) | _ => Raise AttributeErrorExn end) axr;
  let cv := map (fun n => match h (key "CRVAL" n) with Some c => c | None => HInt 0 end) axr in
  do! cp <- comprehend (fun n => match h (key "CRPIX" n) with None => Raise KeyError | Some c => do! x <- as_num c; Ok (x - 1)%R end) axr;
  let cd := map (fun n => match h (key "CDELT" n) with Some c => c | None => HInt 1 end) axr in
  do! cu <- comprehend (fun n => match h (key "CUNIT" n) with None => Ok EmptyString | Some (HStr s) => Ok (upper (strip s)) | _ => Raise AttributeErrorExn end) axr;
  Ok {| naxis := na; ctype := ct; crval := cv; crpix := cp; cdelt := cd; cunit := cu |}.

(* lines 35-45 axis_and_sign.  An axis argument: None, a string, or another object that is or is not true *)
Inductive ax_arg : Type := AxNone | AxStr (s : string) | AxObject (truth : bool).
Definition axis_and_sign (ax : ax_arg) (default : option string) : res (string * R) :=
  let dflt := match default with Some d => if String.eqb d EmptyString then Raise ValueError else Ok (d, 1%R) | None => Raise ValueError end in
  match ax with
  | AxNone | AxObject false | AxStr EmptyString => dflt
  | AxObject true => Raise TypeError
  | AxStr (String c r as s) => Ok (if Ascii.eqb c "-" then (r, (-1)%R) else (s, 1%R))
  end.

(* an axis of a BeamAxes object: name, unit and grid; the other attributes are left out *)
Record axis : Type := { a_ctype : string; a_cunit : string; a_size : nat; a_grid : arr R }.
(* np.deg2rad *)
Definition deg2rad (x : R) : R := (x * (PI / 180))%R.
(* lines 68-79: the cards Gname1 ... Gnamen, where all are there *)
Definition irregular (h : header) (name : string) (n : nat) : option (list card) :=
  fold_right (fun j acc => match h (key ("G" ++ name) j), acc with Some c, Some l => Some (c :: l) | _, _ => None end) (Some []) (seq 1 n).
(* lines 81-99: unit and grid of one axis.  Cards of an irregular grid are numbers *)
Definition make_axis (h : header) (fa : fits_axes) (i : nat) : res axis :=
  do! n <- as_int (nth i (naxis fa) None);
  let size := Z.to_nat n in
  let name := nth i (ctype fa) EmptyString in
  let unit := nth i (cunit fa) EmptyString in
  let degrees := String.eqb unit "DEG" in
  (* self._crval[i] = np.deg2rad(self._crval[i]) needs a number; otherwise the cards are only looked at in _regular_grid *)
  let number (c : card) := do! x <- as_num c; Ok (if degrees then deg2rad x else x) in
  match irregular h name size with
  | Some l =>
      do! _ <- (if degrees then do! _ <- number (nth i (crval fa) (HInt 0)); do! _ <- number (nth i (cdelt fa) (HInt 1)); Ok tt else Ok tt);
      do! g <- comprehend as_num l;
      Ok {| a_ctype := name; a_cunit := if degrees then "RAD" else unit; a_size := size; a_grid := fun j => nth j g 0%R |}
  | None =>
      do! cv <- number (nth i (crval fa) (HInt 0));
      do! cd <- number (nth i (cdelt fa) (HInt 1));
      Ok {| a_ctype := name; a_cunit := if degrees then "RAD" else unit; a_size := size; a_grid := fun j => ((INR j - nth i (crpix fa) 0%R) * cd + cv)%R |}
  end.
(* BeamAxes(header), lines 65-99.  An error among the irregular grids (line 70) comes before the loop over the axes; the errors are
   all TypeErrors *)
Definition beam_axes (h : option header) : res (list axis) :=
  match h with
  | None => Ok []
  | Some h => do! fa <- fits_init h; comprehend (make_axis h fa) (seq 0 (List.length (ctype fa)))
  end.

(* lines 175-182: the last axis found of each kind *)
Definition is_l (s : string) : bool := existsb (String.eqb (upper s)) ["L"; "X"; "PX"]%string.
Definition is_m (s : string) : bool := existsb (String.eqb (upper s)) ["M"; "Y"; "PY"]%string.
Definition is_freq (s : string) : bool := String.eqb s "FREQ".
Record found : Type := { f_l : option nat; f_m : option nat; f_freq : option nat }.
Fixpoint find_axes (i : nat) (l : list axis) (f : found) : found :=
  match l with
  | [] => f
  | a :: l =>
      find_axes (S i) l
        (if is_l (a_ctype a) then {| f_l := Some i; f_m := f_m f; f_freq := f_freq f |}
         else if is_m (a_ctype a) then {| f_l := f_l f; f_m := Some i; f_freq := f_freq f |}
         else if is_freq (a_ctype a) then {| f_l := f_l f; f_m := f_m f; f_freq := Some i |} else f)
  end.
(* lines 131-208 beam_grids: axis number, number of points and grid of l, m and frequency *)
Definition grid_out : Type := nat * nat * arr R.
Definition beam_grids (h : option header) (l_axis m_axis : ax_arg) : res (grid_out * grid_out * grid_out) :=
  do! axes <- beam_axes h;
  let f := find_axes 0 axes {| f_l := None; f_m := None; f_freq := None |} in
  match f_l f, f_m f, f_freq f with
  | Some l, Some m, Some q =>
      do! (_, ls) <- axis_and_sign l_axis (Some "L"%string);
      do! (_, ms) <- axis_and_sign m_axis (Some "M"%string);
      match nth_error axes l, nth_error axes m, nth_error axes q with
      | Some al, Some am, Some aq =>
          Ok ((l + 1, a_size al, fun j => (a_grid al j * ls)%R), (m + 1, a_size am, fun j => (a_grid am j * ms)%R), (q + 1, a_size aq, a_grid aq))
      | _, _, _ => Raise IndexError
      end
  | _, _, _ => Raise ValueError
  end.

(* ------------------------------------------------------------------ *)
(* lines 211-226 FitsFilenameTemplate and string.Template.substitute *)
Definition is_alpha (c : ascii) : bool := let n := nat_of_ascii c in (Nat.leb 65 n && Nat.leb n 90) || (Nat.leb 97 n && Nat.leb n 122) || Nat.eqb n 95.
Definition is_alnum (c : ascii) : bool := let n := nat_of_ascii c in is_alpha c || (Nat.leb 48 n && Nat.leb n 57).
(* the longest run of identifier characters *)
Fixpoint span (s : string) : string * string :=
  match s with
  | EmptyString => (EmptyString, EmptyString)
  | String c r => if is_alnum c then let '(a, b) := span r in (String c a, b) else (EmptyString, s)
  end.
(* an identifier at the front *)
Definition ident (s : string) : option (string * string) :=
  match s with String c r => if is_alpha c then let '(a, b) := span r in Some (String c a, b) else None | EmptyString => None end.
(* substitute, with at most [fuel] characters; a missing name is a KeyError, which _re_im_filenames turns into a ValueError (lines 236-249) *)
Definition env : Type := string -> option string.
Fixpoint substitute (fuel : nat) (vars : env) (s : string) : res string :=
  match fuel with
  | O => Ok s
  | S fuel =>
      let value x rest := match vars x with None => Raise ValueError | Some v => do! t <- substitute fuel vars rest; Ok (v ++ t)%string end in
      match s with
      | EmptyString => Ok EmptyString
      | String c r =>
          if negb (Ascii.eqb c "$") then do! t <- substitute fuel vars r; Ok (String c t) else
          match r with
          | EmptyString => Raise ValueError
          | String d r' =>
              if Ascii.eqb d "$" then do! t <- substitute fuel vars r'; Ok (String "$" t) else
              match ident r with
              | Some (x, rest) => value x rest
              | None =>
                  if Ascii.eqb d "(" then
                    match ident r' with
                    | Some (x, String e rest) => if Ascii.eqb e ")" then value x rest else Raise ValueError
                    | _ => Raise ValueError
                    end
                  else Raise ValueError
              end
          end
      end
  end.
Definition vars_of (corr ri : string) : env := fun x =>
  if String.eqb x "corr" then Some (lower corr) else if String.eqb x "CORR" then Some (upper corr)
  else if String.eqb x "reim" then Some (lower ri) else if String.eqb x "REIM" then Some (upper ri) else None.
Definition filename (schema corr ri : string) : res string := substitute (String.length schema) (vars_of corr ri) schema.
(* lines 228-252 *)
Definition re_im_filenames (corr schema : string) : res (list string) := comprehend (filename schema corr) ["re"; "im"]%string.
(* casa_types.py lines 4-37 *)
Definition stokes_types : list string :=
  ["Undefined"; "I"; "Q"; "U"; "V"; "RR"; "RL"; "LR"; "LL"; "XX"; "XY"; "YX"; "YY"; "RX"; "RY"; "LX"; "LY"; "XR"; "XL"; "YR"; "YL"; "PP"; "PQ"; "QP"; "QQ";
   "RCircular"; "LCircular"; "Linear"; "Ptotal"; "Plinear"; "PFtotal"; "PFlinear"; "Pangle"]%string.
(* casa_types.py lines 45-52 *)
Definition stokes_id (z : Z) : option string := if Z.ltb z 0 then None else nth_error stokes_types (Z.to_nat z).
(* OrderedDict of pairs: a key keeps its first place and its last value *)
Fixpoint set_key {A} (d : list (string * A)) (k : string) (v : A) : list (string * A) :=
  match d with [] => [(k, v)] | (k', w) :: r => if String.eqb k' k then (k', v) :: r else (k', w) :: set_key r k v end.
(* lines 255-306 beam_filenames *)
Definition beam_filenames (schema : string) (corr_types : list Z) : res (list (string * list string)) :=
  do! names <- comprehend (fun z => match stokes_id z with Some s => Ok (lower s) | None => Raise ValueError end) corr_types;
  do! pairs <- comprehend (fun c => do! f <- re_im_filenames c schema; Ok (c, f)) names;
  Ok (fold_left (fun d p => set_key d (fst p) (snd p)) pairs []).
