(* Specification vocabulary for C77 *)
From Coq Require Import Reals String Ascii.
From Verif Require Import Prelude AxesModel.
Close Scope R_scope.
Open Scope nat_scope.

(* the number on a card, or a default where there is no such card *)
Inductive numeric (h : header) (k : string) (default : option R) : R -> Prop :=
| nu_int z : h k = Some (HInt z) -> numeric h k default (IZR z)
| nu_real x : h k = Some (HReal x) -> numeric h k default x
| nu_default x : h k = None -> default = Some x -> numeric h k default x.
(* the unit of axis n is degrees *)
Definition in_degrees (h : header) (n : nat) : Prop := exists t, h (key "CUNIT" n) = Some (HStr t) /\ upper (strip t) = "DEG"%string.
Definition scale (h : header) (n : nat) (s : R) : Prop := (in_degrees h n /\ s = (PI / 180)%R) \/ (~ in_degrees h n /\ s = 1%R).
(* the cards of axis n have the types they should *)
Record good_axis (h : header) (n : nat) : Prop := {
  g_naxis : exists z, h (key "NAXIS" n) = Some (HInt z);
  g_ctype : exists t, h (key "CTYPE" n) = Some (HStr t);
  g_crpix : exists x, numeric h (key "CRPIX" n) None x;
  g_crval : exists x, numeric h (key "CRVAL" n) (Some 0%R) x;
  g_cdelt : exists x, numeric h (key "CDELT" n) (Some 1%R) x;
  g_cunit : h (key "CUNIT" n) = None \/ exists t, h (key "CUNIT" n) = Some (HStr t);
  g_irregular : forall s j t, h (key ("G" ++ s) j) <> Some (HStr t)
}.
(* names of axes *)
Definition l_name (s : string) : Prop := In s ["L"; "l"; "X"; "x"; "PX"; "Px"; "pX"; "px"]%string.
Definition m_name (s : string) : Prop := In s ["M"; "m"; "Y"; "y"; "PY"; "Py"; "pY"; "py"]%string.
Definition freq_name (s : string) : Prop := s = "FREQ"%string.
(* axis number l (from 1) is the last one whose name satisfies P *)
Definition last_axis (P : string -> Prop) (axes : list axis) (l : nat) (a : axis) : Prop :=
  1 <= l /\ nth_error axes (l - 1) = Some a /\ P (a_ctype a) /\ forall i b, l <= i -> nth_error axes i = Some b -> ~ P (a_ctype b).
(* the sign asked for by an axis argument *)
Definition sign_of (ax : ax_arg) (s : R) : Prop :=
  (exists r, ax = AxStr (String "-" r) /\ s = (-1)%R) \/ ((forall r, ax <> AxStr (String "-" r)) /\ ax <> AxObject true /\ s = 1%R).

(* file name schemas as a list of pieces: text, $$, $name and $(name) *)
Inductive piece : Type := Text (s : string) | Dollar | Name (x : string) | Braced (x : string).
Definition show (p : piece) : string := match p with Text s => s | Dollar => "$$" | Name x => "$" ++ x | Braced x => "$(" ++ x ++ ")" end%string.
Definition show_all (ps : list piece) : string := String.concat "" (map show ps).
Fixpoint all_chars (f : ascii -> bool) (s : string) : bool := match s with EmptyString => true | String c r => f c && all_chars f r end.
Definition identifier (x : string) : Prop := exists c r, x = String c r /\ is_alpha c = true /\ all_chars is_alnum r = true.
(* $name must not run into what follows *)
Fixpoint well_formed (ps : list piece) : Prop :=
  match ps with
  | [] => True
  | Text s :: ps => all_chars (fun c => negb (Ascii.eqb c "$")) s = true /\ well_formed ps
  | Dollar :: ps => well_formed ps
  | Name x :: ps => identifier x /\ (forall c r, show_all ps = String c r -> is_alnum c = false) /\ well_formed ps
  | Braced x :: ps => identifier x /\ well_formed ps
  end.
(* what a piece is replaced by *)
Inductive stands_for (corr ri : string) : piece -> string -> Prop :=
| sf_text s : stands_for corr ri (Text s) s
| sf_dollar : stands_for corr ri Dollar "$"
| sf_var p x v : (p = Name x \/ p = Braced x) ->
    ((x = "corr" /\ v = lower corr) \/ (x = "CORR" /\ v = upper corr) \/ (x = "reim" /\ v = lower ri) \/ (x = "REIM" /\ v = upper ri))%string -> stands_for corr ri p v.
Definition mentions (ps : list piece) (x y : string) : Prop := In (Name x) ps \/ In (Braced x) ps \/ In (Name y) ps \/ In (Braced y) ps.

(* blanks: tab to carriage return, the four separators, and the space *)
Definition blank (c : ascii) : Prop := In (nat_of_ascii c) [9; 10; 11; 12; 13; 28; 29; 30; 31; 32].
(* u is s without the blanks at both ends *)
Definition stripped (s u : string) : Prop :=
  exists a b, s = (a ++ u ++ b)%string /\
    (forall i c, String.get i a = Some c -> blank c) /\ (forall i c, String.get i b = Some c -> blank c) /\
    (forall c, String.get 0 u = Some c -> ~ blank c) /\ (forall c, String.get (String.length u - 1) u = Some c -> ~ blank c).
