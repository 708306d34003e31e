(* What the rounding theorems of C113 say. *)
From Coq Require Import Reals.
From Verif Require Import Prelude CRing CplxR PredictModel RoundModel.
Open Scope R_scope.

(* every operation has a relative error of at most u *)
Definition roundoff (fl : R -> R) (u : R) : Prop := 0 <= u /\ forall x, Rabs (fl x - x) <= u * Rabs x.
(* size and distance of complex numbers: the sum of the two parts *)
Definition size (z : R * R) : R := Rabs (fst z) + Rabs (snd z).
Definition apart (x y : R * R) : R := Rabs (fst x - fst y) + Rabs (snd x - snd y).
(* the relative error of n operations in a row *)
Definition gamma (u : R) (n : nat) : R := (1 + u) ^ n - 1.

(* the arguments as the machine sees them, and the sizes of all their entries *)
Definition stored (fl : R -> R) (a : predict_in RC) : predict_in (rounded fl) := map_in (K := RC) (K' := rounded fl) (fun z => z) a.
Definition sizes (a : predict_in RC) : predict_in RR := map_in (K := RC) (K' := RR) size a.

(* one row, one channel and one correlation; the coherencies of the sources are given *)
Definition sources {K : cops} (l : list K) : predict_in K := {|
  p_nrow := 1; p_time := fun _ => 0%Z; p_ant1 := fun _ => 0%nat; p_ant2 := fun _ => 1%nat;
  p_dde1 := None; p_coh := Some {| h_ndim := 4; h_src := length l; h_row := 1; h_chan := 1; h_corr := 1; h_at := fun s _ _ _ _ => nth s l c0 |}; p_dde2 := None;
  p_die1 := None; p_bvis := None; p_die2 := None |}.
