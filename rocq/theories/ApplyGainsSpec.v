(* Specification vocabulary for C104. *)
From Verif Require Import Prelude CRing CField PredictModel PredictSpec CalModel CalSpec.
Open Scope nat_scope.

Definition sorted_times (nrow : nat) (time : arr Z) : Prop := forall r r', r <= r' -> r' < nrow -> (time r <= time r')%Z.
(* gains for one or two correlations are vectors, for four they are vectors (of a diagonal) or matrices *)
Definition gains_mode (ncorr ndim : nat) (mode : cmode) : Prop :=
  (ncorr <= 2 /\ ndim = 5 /\ mode = DIAG_DIAG) \/ (ncorr = 4 /\ ndim = 5 /\ mode = DIAG) \/ (ncorr = 4 /\ ndim = 6 /\ mode = FULL).
Section ApplySpec.
  Context {F : fops}.
  (* the visibility of a column: four correlations are a 2 x 2 matrix, fewer a vector *)
  Definition as_jones (ncorr : nat) (v : nat -> F) : jones F := fun i j => if Nat.eqb ncorr 4 then v (2 * i + j) else v i.
  (* correlation c of a product of gains and visibility *)
  Definition corr_of (ncorr : nat) (x : jones F) (c : nat) : F := if Nat.eqb ncorr 4 then x (c / 2) (c mod 2) else x c 0.
  (* the sum over the columns of G_p M G_q^H with the gains of time t *)
  Definition with_gains (mode : cmode) (ncorr ndir : nat) (g : gain_arr F) (cols : nat -> nat -> nat -> nat -> F)
             (ant1 ant2 : arr nat) (t r f c : nat) : F :=
    corr_of ncorr (jsum ndir (fun d => gsandwich mode (j_at g t (ant1 r) f d) (as_jones ncorr (cols d r f)) (j_at g t (ant2 r) f d))) c.
  (* the gains in the file are the same *)
  Definition same_gains (g g' : gain_arr F) : Prop :=
    j_ndim g = j_ndim g' /\ j_tim g = j_tim g' /\ j_chan g = j_chan g' /\ j_dir g = j_dir g' /\
    forall t a f s, t < j_tim g -> f < j_chan g -> s < j_dir g -> j_at g t a f s = j_at g' t a f s.
End ApplySpec.
