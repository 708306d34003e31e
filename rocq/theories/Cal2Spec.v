(* Specification vocabulary for C42 and C43 *)
From Coq Require Import Reals.
From Verif Require Import Prelude CRing CField CplxR CplxF PredictModel PredictSpec CalModel CalSpec RimeSpec Cal2Model.
Open Scope R_scope.
Open Scope K_scope.

(* ---------- C42 ---------- *)
(* the visibility of a point source of the given brightness: B exp(-i delay) / n *)
Definition predicted (image : image_arr) (uvw : arr2 R) (freq : arr R) (lm : arr3 R) (t r f s : nat) : jones RCF :=
  fun i j => (i_at image t f s i j * cis (- delay (lm t s 0%nat) (lm t s 1%nat) (uvw r 0%nat) (uvw r 1%nat) (uvw r 2%nat) (freq f)) : RCF)
             / (ofR (n1 (lm t s 0%nat) (lm t s 1%nat) + 1) : RCF).

(* ---------- C43 ---------- *)
Definition im_unit : RC := (0, 1)%R.
(* row number k of time bin t *)
Definition bin_row (tbi : arr Z) (tmin : Z) (t k : nat) : nat := (Z.to_nat (tbi t - tmin) + k)%nat.
(* sum over the rows of a time bin *)
Definition bin_sum {K : cops} (tbi : arr Z) (tmin : Z) (tbc : arr nat) (t : nat) (f : nat -> K) : K :=
  csum (tbc t) (fun k => f (bin_row tbi tmin t k)).
Section Phase.
  Context (tbi : arr Z) (tmin : Z) (tbc ant1 ant2 : arr nat) (ndir : nat).
  (* use r f: row r, channel f is not flagged *)
  Context (use : nat -> nat -> bool).
  Context (M : nat -> nat -> nat -> nat -> RC).       (* model: row, channel, direction, correlation *)
  (* the model visibility of direction s seen through gains G *)
  Definition seen (G : garr RC) (t r f s c : nat) : RC :=
    (G t (ant1 r) f s c 0%nat * M r f s c * cconj (G t (ant2 r) f s c 0%nat)).
  (* diagonal of J^H J and J^H times the residuals, for the phases of antenna a: the derivative of a visibility
     with respect to the phase of its first antenna is i times it, of its second antenna - i times it *)
  Definition JHJ (G : garr RC) (t a f s c : nat) : R :=
    bin_sum (K := RR) tbi tmin tbc t (fun r => if use r f then
      ((if Nat.eqb (ant1 r) a then norm2 (seen G t r f s c) else 0) + (if Nat.eqb (ant2 r) a then norm2 (seen G t r f s c) else 0))%R else 0%R).
  Definition JHR (G : garr RC) (res : nat -> nat -> nat -> RC) (t a f s c : nat) : RC :=
    bin_sum tbi tmin tbc t (fun r => if use r f then
      (if Nat.eqb (ant1 r) a then cconj (im_unit * seen G t r f s c) * res r f c else 0) +
      (if Nat.eqb (ant2 r) a then cconj (copp im_unit * seen G t r f s c) * res r f c else 0) else 0).
  (* the residuals of data D, and the change of phase of one iteration with gains G, given J^H J *)
  Definition residuals (D : nat -> nat -> nat -> RC) (G : garr RC) (t r f c : nat) : RC :=
    (D r f c - csum ndir (fun s => seen G t r f s c)).
  Definition gn_delta (D : nat -> nat -> nat -> RC) (J : nat -> nat -> nat -> nat -> nat -> R) (G : garr RC) (t a f s c : nat) : R :=
    (/ 2 * (re (JHR G (residuals D G t) t a f s c) / J t a f s c))%R.
End Phase.
(* indices of the gains *)
Definition gain_in (nt na nc nd ncorr t a f s c : nat) : Prop := (t < nt /\ a < na /\ f < nc /\ s < nd /\ c < ncorr)%nat.
