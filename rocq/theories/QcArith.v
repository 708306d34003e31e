(* Exact rational arithmetic as an instance of the abstract operations. *)
From Coq Require Import QArith QArith.Qcanon.
From Verif Require Import Prelude AvgModel.
Close Scope Qc_scope. Close Scope Q_scope.
Open Scope nat_scope.

Definition Qc_ltb (x y : Qc) : bool := match (x ?= y)%Qc with Lt => true | _ => false end.
Definition Qc_of_nat (k : nat) : Qc := Q2Qc (inject_Z (Z.of_nat k)).
Definition QcF (big : Qc) : arith := {|
  num := Qc;
  zero := 0%Qc;
  add := Qcplus;
  sub := Qcminus;
  half := fun x => (x * Q2Qc (1 # 2))%Qc;
  divn := fun x k => (x / Qc_of_nat k)%Qc;
  ltb := Qc_ltb;
  neqb := fun x y => negb (Qc_eq_bool x y);
  sentinel := big
|}.

(* Exact rational instance of the averaging arithmetic; visibilities are pairs
   (real, imaginary).  There is no rational square root: [sqrt_of] is a parameter. *)
From Verif Require Import AvgModel2.
Definition QcK (sqrt_of : Qc -> Qc) : farith := {|
  fnum := Qc; f0 := 0%Qc; f1 := 1%Qc;
  fadd := Qcplus; fmul := Qcmult; fdiv := Qcdiv;
  fdivn := fun x k => (x / Qc_of_nat k)%Qc;
  fsqrt := sqrt_of;
  fnonzero := fun x => negb (Qc_eq_bool x 0%Qc);
  cnum := Qc * Qc;
  c0 := (0%Qc, 0%Qc);
  cadd := fun x y => ((fst x + fst y)%Qc, (snd x + snd y)%Qc);
  cscale := fun x w => ((fst x * w)%Qc, (snd x * w)%Qc);
  cdiv := fun x w => ((fst x / w)%Qc, (snd x / w)%Qc)
|}.
