(* Specification vocabulary for C74 *)
From Coq Require Import Reals.
From Verif Require Import Prelude CRing CplxR GpsModel.
Close Scope R_scope.
Open Scope nat_scope.

(* Euclidean distance of two vectors of d components *)
Definition distance (d : nat) (a b : arr R) : R := sqrt (csum (K := RR) d (fun k => ((a k - b k) * (a k - b k))%R)).
(* a quadratic form: sum over i and j of a_i a_j k(i, j) *)
Definition form (n : nat) (k : arr2 R) (a : arr R) : R := csum (K := RR) n (fun i => csum (K := RR) n (fun j => (a i * a j * k i j)%R)).
(* a regular grid *)
Definition regular (n : nat) (x : arr2 R) (delx : R) : Prop := forall i, S i < n -> (x (S i) 0%nat - x i 0%nat = delx)%R.
