(* Model of /repo/africanus/gridding/perleypolyhedron/policies/stokes_conversion_policies.py.  The numba overloads choose an
   implementation from the literal policy name while compiling; a name they do not know is modelled as raising ValueError.
   Numbers are exact complex numbers; an array view is a function of the index, its length is carried separately. *)
From Coq Require Import String Reals.
From Verif Require Import Prelude CRing CplxR.
Close Scope R_scope.
Open Scope string_scope.
Open Scope nat_scope.

(* vis_out[i] += x *)
Definition add_at (i : nat) (x : RC) (out : arr RC) : arr RC := upd out i (cadd (out i) x).
(* the literals 1.0j, -1.0j and 0.5 *)
Definition pj : RC := (0%R, 1%R).
Definition mj : RC := (0%R, (-1)%R).
Definition half : RC := ((1 / 2)%R, 0%R).

(* lines 8-139 *)
Definition stokes2corr_impl (policy : string) : res (RC -> arr RC -> arr RC) :=
  if (policy =? "XXYY_FROM_I")%string then Ok (fun x out => add_at 1 x (add_at 0 x out)) (* 10-16 *) else
  if (policy =? "XXXYYXYY_FROM_I")%string then Ok (fun x out => add_at 3 x (add_at 2 c0 (add_at 1 c0 (add_at 0 x out)))) (* 17-25 *) else
  if (policy =? "RRLL_FROM_I")%string then Ok (fun x out => add_at 1 x (add_at 0 x out)) (* 26-32 *) else
  if (policy =? "RRRLLRLL_FROM_I")%string then Ok (fun x out => add_at 3 x (add_at 2 c0 (add_at 1 c0 (add_at 0 x out)))) (* 33-41 *) else
  if (policy =? "XXYY_FROM_Q")%string then Ok (fun x out => add_at 1 (copp x) (add_at 0 x out)) (* 42-48 *) else
  if (policy =? "XXXYYXYY_FROM_Q")%string then Ok (fun x out => add_at 3 (copp x) (add_at 2 c0 (add_at 1 c0 (add_at 0 x out)))) (* 49-57 *) else
  if (policy =? "RLLR_FROM_Q")%string then Ok (fun x out => add_at 1 x (add_at 0 x out)) (* 58-64 *) else
  if (policy =? "RRRLLRLL_FROM_Q")%string then Ok (fun x out => add_at 3 c0 (add_at 2 x (add_at 1 x (add_at 0 c0 out)))) (* 65-73 *) else
  if (policy =? "XYYX_FROM_U")%string then Ok (fun x out => add_at 1 x (add_at 0 x out)) (* 74-80 *) else
  if (policy =? "XXXYYXYY_FROM_U")%string then Ok (fun x out => add_at 3 c0 (add_at 2 x (add_at 1 x (add_at 0 c0 out)))) (* 81-89 *) else
  if (policy =? "RLLR_FROM_U")%string then Ok (fun x out => add_at 1 (cmul mj x) (add_at 0 (cmul pj x) out)) (* 90-96 *) else
  if (policy =? "RRRLLRLL_FROM_U")%string then Ok (fun x out => add_at 3 c0 (add_at 2 (cmul mj x) (add_at 1 (cmul pj x) (add_at 0 c0 out)))) (* 97-105 *) else
  if (policy =? "XYYX_FROM_V")%string then Ok (fun x out => add_at 1 (cmul mj x) (add_at 0 (cmul pj x) out)) (* 106-112 *) else
  if (policy =? "XXXYYXYY_FROM_V")%string then Ok (fun x out => add_at 3 c0 (add_at 2 (cmul mj x) (add_at 1 (cmul pj x) (add_at 0 c0 out)))) (* 113-121 *) else
  if (policy =? "RRLL_FROM_V")%string then Ok (fun x out => add_at 1 (copp x) (add_at 0 x out)) (* 122-128 *) else
  if (policy =? "RRRLLRLL_FROM_V")%string then Ok (fun x out => add_at 3 (copp x) (add_at 2 c0 (add_at 1 c0 (add_at 0 x out)))) (* 129-137 *) else
  Raise ValueError.

(* lines 146-183, with the number of correlations the implementation reads; numba does not check that the view is that long,
   modelled as raising IndexError *)
Definition corr2stokes_impl (policy : string) : res (nat * (arr RC -> RC)) :=
  if (policy =? "I_FROM_XXYY")%string then Ok (2, fun v => cmul (cadd (v 0) (v 1)) half) (* 148 *) else
  if (policy =? "I_FROM_XXXYYXYY")%string then Ok (4, fun v => cmul (cadd (v 0) (v 3)) half) (* 150 *) else
  if (policy =? "I_FROM_RRLL")%string then Ok (2, fun v => cmul (cadd (v 0) (v 1)) half) (* 152 *) else
  if (policy =? "I_FROM_RRRLLRLL")%string then Ok (4, fun v => cmul (cadd (v 0) (v 3)) half) (* 154 *) else
  if (policy =? "Q_FROM_XXYY")%string then Ok (2, fun v => cmul (csub (v 0) (v 1)) half) (* 156 *) else
  if (policy =? "Q_FROM_XXXYYXYY")%string then Ok (4, fun v => cmul (csub (v 0) (v 3)) half) (* 158 *) else
  if (policy =? "Q_FROM_RRRLLRLL")%string then Ok (3, fun v => cmul (cadd (v 1) (v 2)) half) (* 160 *) else
  if (policy =? "U_FROM_XYYX")%string then Ok (2, fun v => cmul (cadd (v 0) (v 1)) half) (* 162 *) else
  if (policy =? "U_FROM_XXXYYXYY")%string then Ok (3, fun v => cmul (cadd (v 1) (v 2)) half) (* 164 *) else
  if (policy =? "U_FROM_RLLR")%string then Ok (2, fun v => cmul (cmul mj (csub (v 0) (v 1))) half) (* 166 *) else
  if (policy =? "U_FROM_RRRLLRLL")%string then Ok (3, fun v => cmul (cmul mj (csub (v 1) (v 2))) half) (* 169 *) else
  if (policy =? "V_FROM_RRLL")%string then Ok (2, fun v => cmul (csub (v 0) (v 1)) half) (* 172 *) else
  if (policy =? "V_FROM_RRRLLRLL")%string then Ok (4, fun v => cmul (csub (v 0) (v 3)) half) (* 174 *) else
  if (policy =? "V_FROM_XYYX")%string then Ok (2, fun v => cmul (cmul mj (csub (v 0) (v 1))) half) (* 176 *) else
  if (policy =? "V_FROM_XXXYYXYY")%string then Ok (3, fun v => cmul (cmul mj (csub (v 1) (v 2))) half) (* 179 *) else
  Raise ValueError.

Definition corr2stokes (policy : string) (ncorr : nat) : res (arr RC -> RC) :=
  do! (reads, f) <- corr2stokes_impl policy; if Nat.ltb ncorr reads then Raise IndexError else Ok f.

(* lines 190-225 *)
Definition ncorr_out (policy : string) : res nat :=
  if (policy =? "XXYY_FROM_I")%string then Ok 2 else
  if (policy =? "XXXYYXYY_FROM_I")%string then Ok 4 else
  if (policy =? "RRLL_FROM_I")%string then Ok 2 else
  if (policy =? "RRRLLRLL_FROM_I")%string then Ok 4 else
  if (policy =? "XXYY_FROM_Q")%string then Ok 2 else
  if (policy =? "XXXYYXYY_FROM_Q")%string then Ok 4 else
  if (policy =? "RLLR_FROM_Q")%string then Ok 2 else
  if (policy =? "RRRLLRLL_FROM_Q")%string then Ok 4 else
  if (policy =? "XYYX_FROM_U")%string then Ok 2 else
  if (policy =? "XXXYYXYY_FROM_U")%string then Ok 4 else
  if (policy =? "RLLR_FROM_U")%string then Ok 2 else
  if (policy =? "RRRLLRLL_FROM_U")%string then Ok 4 else
  if (policy =? "XYYX_FROM_V")%string then Ok 2 else
  if (policy =? "XXXYYXYY_FROM_V")%string then Ok 4 else
  if (policy =? "RRLL_FROM_V")%string then Ok 2 else
  if (policy =? "RRRLLRLL_FROM_V")%string then Ok 4 else
  Raise ValueError.
(* lines 228-262 *)
Definition ncorr_outpy (policy : string) : res nat :=
  if (policy =? "XXYY_FROM_I")%string then Ok 2 else
  if (policy =? "XXXYYXYY_FROM_I")%string then Ok 4 else
  if (policy =? "RRLL_FROM_I")%string then Ok 2 else
  if (policy =? "RRRLLRLL_FROM_I")%string then Ok 4 else
  if (policy =? "XXYY_FROM_Q")%string then Ok 2 else
  if (policy =? "XXXYYXYY_FROM_Q")%string then Ok 4 else
  if (policy =? "RLLR_FROM_Q")%string then Ok 2 else
  if (policy =? "RRRLLRLL_FROM_Q")%string then Ok 4 else
  if (policy =? "XYYX_FROM_U")%string then Ok 2 else
  if (policy =? "XXXYYXYY_FROM_U")%string then Ok 4 else
  if (policy =? "RLLR_FROM_U")%string then Ok 2 else
  if (policy =? "RRRLLRLL_FROM_U")%string then Ok 4 else
  if (policy =? "XYYX_FROM_V")%string then Ok 2 else
  if (policy =? "XXXYYXYY_FROM_V")%string then Ok 4 else
  if (policy =? "RRLL_FROM_V")%string then Ok 2 else
  if (policy =? "RRRLLRLL_FROM_V")%string then Ok 4 else
  Raise ValueError.
