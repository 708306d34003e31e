(* What the theorems of C124 say. *)
From Coq Require Import Reals String.
From Verif Require Import Prelude CRing CplxR CohModel CohSpec RoundSpec RhogSpec RcohModel.
Open Scope R_scope.
Open Scope string_scope.

(* binary rounding: it is a rounding mode, symmetric, and commutes with doubling *)
Definition binary (fl : R -> R) (u : R) : Prop :=
  rounding fl u /\ (forall x, fl (- x) = - fl x) /\ forall x, fl (2 * x) = 2 * fl x.
(* the exact values, each part rounded once *)
Definition rounded_once (fl : R -> R) (val : string -> option (R * R)) (s : string) : option (R * R) :=
  option_map (fun z => (fl (fst z), fl (snd z))) (val s).
(* values given in the order of the names *)
Definition these (names : list string) (values : list (R * R)) (s : string) : option (R * R) := assoc s (combine names values).
(* Stokes parameters of correlations that need not form a Hermitian matrix: the mean over the two that contribute *)
Definition stokes_of_linear (xx xy yx yy : R * R) : string -> option (R * R) :=
  these STOKES [((fst xx + fst yy) / 2, 0); ((fst xx - fst yy) / 2, 0); ((fst xy + fst yx) / 2, 0); ((snd xy - snd yx) / 2, 0)].
Definition stokes_of_circular (rr rl lr ll : R * R) : string -> option (R * R) :=
  these STOKES [((fst rr + fst ll) / 2, 0); ((fst rl + fst lr) / 2, 0); ((snd rl - snd lr) / 2, 0); ((fst rr - fst ll) / 2, 0)].
