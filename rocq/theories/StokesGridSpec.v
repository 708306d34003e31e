(* Specification vocabulary for C67: what each correlation product contains of each Stokes parameter *)
From Coq Require Import String Reals.
From Verif Require Import Prelude CRing CplxR.
Close Scope R_scope.
Open Scope nat_scope.

Inductive product : Type := XX | XY | YX | YY | RR' | RL | LR | LL.
Inductive stokes : Type := I | Q | U | V.
(* XX = I + Q, XY = U + iV, YX = U - iV, YY = I - Q; RR = I + V, RL = Q + iU, LR = Q - iU, LL = I - V:
   the coefficient as (real, imaginary) integers *)
Definition coefficient (p : product) (s : stokes) : Z * Z :=
  match p, s with
  | XX, I => (1, 0) | XX, Q => (1, 0)
  | XY, U => (1, 0) | XY, V => (0, 1)
  | YX, U => (1, 0) | YX, V => (0, -1)
  | YY, I => (1, 0) | YY, Q => (-1, 0)
  | RR', I => (1, 0) | RR', V => (1, 0)
  | RL, Q => (1, 0) | RL, U => (0, 1)
  | LR, Q => (1, 0) | LR, U => (0, -1)
  | LL, I => (1, 0) | LL, V => (-1, 0)
  | _, _ => (0, 0)
  end%Z.
Definition coeff (p : product) (s : stokes) : RC := (IZR (fst (coefficient p s)), IZR (snd (coefficient p s))).
(* the correlation layouts the policies are named after *)
Definition layouts : list (list product) :=
  [[XX; YY]; [XX; XY; YX; YY]; [RR'; LL]; [RR'; RL; LR; LL]; [XY; YX]; [RL; LR]].
Definition product_name (p : product) : string :=
  match p with XX => "XX" | XY => "XY" | YX => "YX" | YY => "YY" | RR' => "RR" | RL => "RL" | LR => "LR" | LL => "LL" end%string.
Definition layout_name (l : list product) : string := fold_right append EmptyString (map product_name l).
Definition stokes_name (s : stokes) : string := match s with I => "I" | Q => "Q" | U => "U" | V => "V" end%string.
Definition to_name (l : list product) (s : stokes) : string := (layout_name l ++ "_FROM_" ++ stokes_name s)%string.
Definition from_name (s : stokes) (l : list product) : string := (stokes_name s ++ "_FROM_" ++ layout_name l)%string.
(* the layout contains the Stokes parameter *)
Definition contains (l : list product) (s : stokes) : Prop := exists p, In p l /\ coefficient p s <> (0, 0)%Z.
