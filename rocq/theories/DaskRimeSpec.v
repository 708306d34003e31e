(* What the chunked wrappers are compared with. *)
From Coq Require Import Reals String.
From Verif Require Import Prelude CRing CplxR RimeSpec CohModel CohSpec.
Open Scope R_scope.

(* a library that computes each (time, antenna) on its own, from the time, the coordinates of the antenna and the field
   centre *)
Definition per_element (lib : nat -> arr R -> nat -> nat -> arr2 R -> arr R -> res (arr2 R)) (f : R -> list R -> R * R -> R) : Prop :=
  forall ntime times nant ncomp positions fc, exists o, lib ntime times nant ncomp positions fc = Ok o /\
    forall t a, (t < ntime)%nat -> (a < nant)%nat -> o t a = f (times t) (map (positions a) (seq 0 ncomp)) (fc 0%nat, fc 1%nat).

(* the matrix of a feed rotated by x *)
Definition feed_matrix (feed_type : string) (x : R) (i j : nat) : option RC :=
  if String.eqb feed_type "linear" then
    match i, j with
    | O, O => Some ((cos x, 0) : RC) | O, S O => Some ((sin x, 0) : RC)
    | S O, O => Some ((- sin x, 0) : RC) | S O, S O => Some ((cos x, 0) : RC) | _, _ => None
    end
  else if String.eqb feed_type "circular" then
    match i, j with
    | O, O => Some (cis (- x)) | O, S O => Some ((0, 0) : RC)
    | S O, O => Some ((0, 0) : RC) | S O, S O => Some (cis x) | _, _ => None
    end
  else None.

(* an array of four Stokes parameters, and its schema *)
Definition four (i q u v : gint) : ndarr GI := {| nd_shape := [4%nat]; nd_at := fun k => ((nth (hd O k) [i; q; u; v] (Gi 0%Z 0%Z), Gi 0%Z 0%Z) : cx GI) |}.
Definition iquv : sch := SSeq [SStr "I"%string; SStr "Q"%string; SStr "U"%string; SStr "V"%string].
