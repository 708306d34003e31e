(* Specification vocabulary for C93 *)
From Coq Require Import Reals String.
From Verif Require Import Prelude CRing CplxR DaskRimeModel DaskRimeSpec CudaModel CudaRimeModel.
Open Scope nat_scope.

(* an array without gaps, rows of n elements one after the other *)
Definition contiguous (n : nat) (v : view) : Prop := vw_s0 v = n /\ vw_s1 v = 1.
(* the outputs of three and of two indices within bounds *)
Definition out3 (n1 n2 n3 : nat) (f : nat -> nat -> nat -> RC) (x : name) : option RC :=
  match x with [i; j; k] => if (i <? n1) && (j <? n2) && (k <? n3) then Some (f i j k) else None | _ => None end.
Definition out2 (n1 n2 : nat) (f : nat -> nat -> RC) (x : name) : option RC :=
  match x with [i; j] => if (i <? n1) && (j <? n2) then Some (f i j) else None | _ => None end.
(* what the kernel for these angles leaves at position p, c of its output: component c of the matrix of angle p *)
Definition feed_out (shape : list nat) (pa : list nat -> R) (feed_type : string) (x : name) : option RC :=
  match x with [p; c] => if (p <? prodn shape) && (c <? 4) then feed_matrix feed_type (pa (unravel shape p)) (c / 2) (c mod 2) else None | _ => None end.
