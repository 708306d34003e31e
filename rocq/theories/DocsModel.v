(* Model of /repo/africanus/util/docs.py:15-33, 46-59 and /repo/africanus/util/files.py:7-15.  Strings are lists of ASCII characters. *)
From Coq Require Import Ascii.
From Verif Require Import Prelude.
Open Scope char_scope.

Definition text := list ascii.
(* ---------- docs.py:46-59 and string.Template.substitute ---------- *)
(* Template.idpattern, [_a-z][_a-z0-9]* without regard to case *)
Definition letter (c : ascii) : bool :=
  let k := nat_of_ascii c in
  ((65 <=? k) && (k <=? 90) || (97 <=? k) && (k <=? 122) || (k =? 95))%nat%bool.
Definition id_char (c : ascii) : bool := (letter c || ((48 <=? nat_of_ascii c) && (nat_of_ascii c <=? 57))%nat)%bool.
(* the longest prefix of characters with p, and the rest *)
Fixpoint span (p : ascii -> bool) (s : text) : text * text :=
  match s with
  | c :: s' => if p c then let (a, b) := span p s' in (c :: a, b) else ([], s)
  | [] => ([], [])
  end.
(* an identifier at the start of s: the match is greedy; nothing after it in the pattern can match with a shorter one *)
Definition identifier (s : text) : option (text * text) :=
  match s with c :: _ => if letter c then Some (span id_char s) else None | [] => None end.
(* mapping[name] *)
Definition value (m : text -> option text) (x : text) : res text := match m x with Some v => Ok v | None => Raise KeyError end.
(* lines 51-58: after the delimiter the alternatives are tried in the order escaped, named, braced, invalid; the substitution
   works from left to right.  fuel: the length of s is enough. *)
Fixpoint subst (fuel : nat) (m : text -> option text) (s : text) : res text :=
  match fuel with
  | O => Ok []
  | S fuel =>
      match s with
      | [] => Ok []
      | c :: s1 =>
          if Ascii.eqb c "$" then
            match s1 with
            | [] => Raise ValueError
            | d :: s2 =>
                if Ascii.eqb d "$" then do! r <- subst fuel m s2; Ok ("$" :: r)
                else match identifier s1 with
                     | Some (x, s3) => do! v <- value m x; do! r <- subst fuel m s3; Ok (v ++ r)
                     | None =>
                         if Ascii.eqb d "(" then
                           match identifier s2 with
                           | Some (x, e :: s3) => if Ascii.eqb e ")" then do! v <- value m x; do! r <- subst fuel m s3; Ok (v ++ r) else Raise ValueError
                           | _ => Raise ValueError
                           end
                         else Raise ValueError
                     end
            end
          else do! r <- subst fuel m s1; Ok (c :: r)
      end
  end.
Definition substitute (m : text -> option text) (s : text) : res text := subst (List.length s) m s.

(* ---------- docs.py:15-33 ---------- *)
Fixpoint starts (p s : text) : option text :=
  match p, s with
  | [], _ => Some s
  | a :: p', b :: s' => if Ascii.eqb a b then starts p' s' else None
  | _ :: _, [] => None
  end.
(* str.replace for a search string that is not empty: from left to right, without overlap *)
Fixpoint replace_ (fuel : nat) (a b s : text) : text :=
  match fuel with
  | O => s
  | S fuel =>
      match starts a s with
      | Some s' => b ++ replace_ fuel a b s'
      | None => match s with c :: s' => c :: replace_ fuel a b s' | [] => [] end
      end
  end.
(* for an empty one b is put before every character and at the end *)
Definition replace (a b s : text) : text :=
  match a with [] => flat_map (fun c => b ++ [c]) s ++ b | _ => replace_ (S (List.length s)) a b s end.
(* lines 15-19 *)
Definition mod_docs (docstring : text) (replacements : list (text * text)) : text :=
  fold_left (fun d r => replace (fst r) (snd r) d) replacements docstring.
(* lines 22-33.  Some fields: of a named tuple or a dictionary; None is anything else: then fields stays None and is iterated. *)
Definition doc_tuple_to_str (doc_tuple : option (list text)) (replacements : option (list (text * text))) : res text :=
  match doc_tuple with
  | None => Raise TypeError
  | Some fields => Ok (concat (match replacements with Some rs => map (fun f => mod_docs f rs) fields | None => fields end))
  end.

(* ---------- files.py:7-15 ---------- *)
Section Hash.
  (* hashlib's sha1 object *)
  Context {St Dg : Type} (init : St) (update : St -> text -> St) (hexdigest : St -> Dg).
  (* the i-th f.read(size) of what is left of the file: got i + 1 bytes, at most size, at most what is left; none at the end *)
  Definition read (got : nat -> nat) (i size : nat) (left : text) : text * text :=
    let k := Nat.min size (S (got i)) in (firstn k left, skipn k left).
  (* lines 11-13: until a read gives nothing *)
  Fixpoint hash_loop (fuel : nat) (got : nat -> nat) (i size : nat) (left : text) (st : St) : St :=
    match fuel with
    | O => st
    | S fuel => let (chunk, left) := read got i size left in
                match chunk with [] => st | _ => hash_loop fuel got (S i) size left (update st chunk) end
    end.
  (* the size of line 12 is 1024 * 1024; an argument here *)
  Definition sha_hash_file (got : nat -> nat) (size : nat) (contents : text) : Dg :=
    hexdigest (hash_loop (S (List.length contents)) got 0 size contents init).
End Hash.
