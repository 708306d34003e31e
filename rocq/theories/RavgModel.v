(* Averaging with rounded arithmetic: the operations that AvgModel.v and AvgModel2.v leave open. *)
From Coq Require Import Reals.
From Verif Require Import Prelude AvgModel AvgModel2.
Open Scope R_scope.

Definition rlt (x y : R) : bool := if Rlt_dec x y then true else false.
Definition rne (x y : R) : bool := if Req_EM_T x y then false else true.

(* time_and_channel_mapping.py:198-290, the arithmetic on times: every operation is rounded by fl; big is np.finfo(dtype).max.
   The count in a division is converted to a float first (exactly, for counts below 2^53). *)
Definition rounded_rows (fl : R -> R) (big : R) : arith := {|
  num := R; zero := 0; add := fun x y => fl (x + y); sub := fun x y => fl (x - y); half := fun x => fl (x * / 2);
  divn := fun x n => fl (x / INR n); ltb := rlt; neqb := rne; sentinel := big |}.

(* time_and_channel_avg.py:88-149, 183-307, 671-688, the arithmetic on columns.  A visibility times or divided by a real number: numba
   converts the number to a complex one with imaginary part 0, and the products with that part are exact zeros; so both parts
   are multiplied or divided with one rounding each. *)
Definition rounded_cols (fl : R -> R) : farith := {|
  fnum := R; f0 := 0; f1 := 1; fadd := fun x y => fl (x + y); fmul := fun x y => fl (x * y); fdiv := fun x y => fl (x / y);
  fdivn := fun x n => fl (x / INR n); fsqrt := fun x => fl (sqrt x); fnonzero := fun x => rne x 0;
  cnum := (R * R)%type; c0 := (0, 0); cadd := fun x y => (fl (fst x + fst y), fl (snd x + snd y));
  cscale := fun z w => (fl (fst z * w), fl (snd z * w)); cdiv := fun z w => (fl (fst z / w), fl (snd z / w)) |}.
