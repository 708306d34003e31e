(* What the theorems of C126 say. *)
From Coq Require Import Ascii String.
From Verif Require Import Prelude.
Open Scope char_scope.
Open Scope list_scope.

Definition letters : list ascii := list_ascii_of_string "ABCDEFGHIJKLMNOPQRSTUVWXYZabcdefghijklmnopqrstuvwxyz_".
Definition digits : list ascii := list_ascii_of_string "0123456789".
(* a Python identifier *)
Definition name (x : list ascii) : Prop := exists c r, x = c :: r /\ In c letters /\ Forall (fun d => In d (letters ++ digits)) r.
(* what a docstring template is made of: ordinary characters, $$, $name and $(name) *)
Inductive piece : Type := Plain (c : ascii) | Dollar | Field (x : list ascii) | Braced (x : list ascii).
Definition written (p : piece) : list ascii :=
  match p with Plain c => [c] | Dollar => ["$"; "$"] | Field x => "$" :: x | Braced x => "$" :: "(" :: x ++ [")"] end.
Definition template (ps : list piece) : list ascii := concat (map written ps).
(* a $name must end where it seems to end *)
Fixpoint well_formed (ps : list piece) : Prop :=
  match ps with
  | [] => True
  | p :: r => match p with
              | Plain c => c <> "$"
              | Dollar => True
              | Field x => name x /\ match r with Plain c :: _ => ~ In c (letters ++ digits) | _ => True end
              | Braced x => name x
              end /\ well_formed r
  end.
(* the text with the values in their places; None if a name has no value *)
Definition meant (m : list ascii -> option (list ascii)) (p : piece) : option (list ascii) :=
  match p with Plain c => Some [c] | Dollar => Some ["$"] | Field x | Braced x => m x end.
Fixpoint filled (m : list ascii -> option (list ascii)) (ps : list piece) : option (list ascii) :=
  match ps with
  | [] => Some []
  | p :: r => match meant m p, filled m r with Some a, Some b => Some (a ++ b) | _, _ => None end
  end.

(* a is somewhere in s *)
Definition occurs (a s : list ascii) : Prop := exists l r, s = l ++ a ++ r.
(* in p followed by a, the only a is the last one *)
Definition first_here (a p : list ascii) : Prop := forall l r, p ++ a = l ++ a ++ r -> r = [].
(* no a begins in s and ends in t *)
Definition no_straddle (a s t : list ascii) : Prop :=
  forall l r, s ++ t = l ++ a ++ r -> List.length l + List.length a <= List.length s \/ List.length s <= List.length l.
