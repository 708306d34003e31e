(* Specification vocabulary for C85 *)
From Coq Require Import Reals.
From Verif Require Import Prelude CRing CplxR.
Open Scope R_scope.

(* radial degree n and azimuthal order m of a Zernike polynomial *)
Definition zernike_order (n : nat) (m : Z) : Prop := (Z.abs m <= Z.of_nat n)%Z /\ exists h, (Z.of_nat n - m = 2 * h)%Z.
(* binomial coefficients *)
Fixpoint binom (n k : nat) : nat :=
  match n, k with
  | _, O => 1
  | O, S _ => 0
  | S n, S k => binom n k + binom n (S k)
  end.
(* R_n^m(rho) = sum over k of (-1)^k C(n-k, k) C(n-2k, (n-m)/2-k) rho^(n-2k) *)
Definition radial (n m : nat) (rho : R) : R :=
  csum (K := RR) (S ((n - m) / 2)) (fun k => (-1) ^ k * INR (binom (n - k) k * binom (n - 2 * k) ((n - m) / 2 - k)) * rho ^ (n - 2 * k)).
(* Zernike polynomial: cosine for m >= 0, sine for m < 0, zero outside the unit disc *)
Definition zern (n : nat) (m : Z) (rho phi : R) : R :=
  if Rlt_dec 1 rho then 0
  else radial n (Z.abs_nat m) rho * (if Z.ltb m 0 then sin (IZR (Z.abs m) * phi) else cos (IZR (Z.abs m) * phi)).
