(* /repo/africanus/model/coherency/conversion.py:14-36 with every operation rounded: convert of CohModel.v over this arithmetic of
   real numbers (the parts of complex numbers).  numpy adds complex numbers part by part and rounds each part; negation is exact.
   Simplified: in u - v*1j numpy multiplies v by 1j with rounded products by 0 and 1, which changes nothing; CohModel.v has
   the product with j as an exchange of the parts. *)
From Coq Require Import Reals.
From Verif Require Import Prelude CRing.
Open Scope R_scope.

Definition rounded_real (fl : R -> R) : cops := {|
  car := R; c0 := 0; c1 := 1;
  cadd := fun x y => fl (x + y); cmul := fun x y => fl (x * y); csub := fun x y => fl (x - y); copp := fun x => - x; cconj := fun x => x |}.
