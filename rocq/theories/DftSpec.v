From Coq Require Import Reals String.
From Verif Require Import Prelude CRing CplxR RimeSpec.
Open Scope R_scope.

(* the phase of source s at row r and channel f *)
Definition src_delay (lm uvw : arr2 R) (freq : arr R) (s r f : nat) : R :=
  delay (lm s 0%nat) (lm s 1%nat) (uvw r 0%nat) (uvw r 1%nat) (uvw r 2%nat) (freq f).
(* sums of real numbers *)
Definition rsum (n : nat) (f : nat -> R) : R := csum (K := RR) n f.
(* a channel of a row is flagged when one of its correlations is *)
Definition flagged (ncorr : nat) (flags : arr3 bool) (r f : nat) : Prop := exists c, (c < ncorr)%nat /\ flags r f c = true.
(* V with the flagged (row, channel) pairs set to zero *)
Definition unflagged_part (ncorr : nat) (flags : arr3 bool) (V W : arr3 RC) : Prop :=
  forall r f c, (flagged ncorr flags r f -> W r f c = c0) /\ (~ flagged ncorr flags r f -> W r f c = V r f c).
(* real inner products *)
Definition vis_inner (nrow nchan ncorr : nat) (V W : arr3 RC) : R :=
  rsum nrow (fun r => rsum nchan (fun f => rsum ncorr (fun c => re (cmul (cconj (V r f c)) (W r f c))))).
Definition im_inner (nsrc nchan ncorr : nat) (x y : arr3 R) : R :=
  rsum nsrc (fun s => rsum nchan (fun f => rsum ncorr (fun c => x s f c * y s f c))).
(* sign of the exponent of im_to_vis in each convention *)
Inductive im_sign : string -> R -> Prop := sgn_fourier : im_sign "fourier" (-1) | sgn_casa : im_sign "casa" 1.
