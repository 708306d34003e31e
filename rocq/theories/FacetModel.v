(* Model of /repo/africanus/gridding/perleypolyhedron/policies/{phase,baseline}_transform_policies.py.  Numbers are exact
   reals and complex numbers.  The uvw array is the memory it lies in, C contiguous: component i of row r is at 3 * r + i.
   numba does not check bounds, so index 3 of row r is the next element of the memory. *)
From Coq Require Import String Reals.
From Verif Require Import Prelude CRing CplxR.
Close Scope string_scope.
Open Scope R_scope.

Definition comp (r i : nat) : nat := (3 * r + i)%nat.

(* phase_transform_policies.py lines 36-48 *)
Definition facet_lmn (ra0 dec0 ra dec : R) : R * R * R :=
  let d_ra := ra - ra0 in
  let c_d_dec := cos dec in
  let s_d_dec := sin dec in
  let s_d_ra := sin d_ra in
  let c_d_ra := cos d_ra in
  let c_d_decp := cos dec0 in
  let s_d_decp := sin dec0 in
  let ll := c_d_dec * s_d_ra in
  let mm := s_d_dec * c_d_decp - c_d_dec * s_d_decp * c_d_ra in
  let nn := - (1 - sqrt (1 - ll * ll - mm * mm)) in
  (ll, mm, nn).
(* lines 17-52, on row r of the uvw array; vis is the view vis[r, :, :] *)
Definition phase_rotate (nchan : nat) (vis : arr2 RC) (uvw : arr R) (r : nat) (lambdas : arr R) (ra0 dec0 ra dec phasesign : R) : arr2 RC :=
  let '(ll, mm, nn) := facet_lmn ra0 dec0 ra dec in
  for_ nchan (fun c (vis : arr2 RC) =>
    let x := phasesign * 2 * PI * (uvw (comp r 0) * ll + uvw (comp r 1) * mm + uvw (comp r 2) * nn) / lambdas c in
    fun c' k => if Nat.eqb c' c then cmul (vis c' k) (cadd (ofR (cos x)) (cmul ((0, 1) : RC) (ofR (sin x)))) else vis c' k) vis.
(* lines 58-74; None is the Python value *)
Definition phase_policy (policy : option string) : res (nat -> arr2 RC -> arr R -> nat -> arr R -> R -> R -> R -> R -> R -> arr2 RC) :=
  match policy with
  | None => Ok (fun _ vis _ _ _ _ _ _ _ _ => vis)
  | Some p =>
      if (p =? "None")%string then Ok (fun _ vis _ _ _ _ _ _ _ _ => vis)
      else if (p =? "phase_rotate")%string then Ok phase_rotate
      else Raise ValueError
  end.

(* baseline_transform_policies.py lines 31-46: the matrix *)
Definition rot_matrix (ra0 dec0 ra dec : R) : arr2 R :=
  let d_ra := ra - ra0 in
  let c_d_ra := cos d_ra in
  let s_d_ra := sin d_ra in
  let c_new_dec := cos dec in
  let c_old_dec := cos dec0 in
  let s_new_dec := sin dec in
  let s_old_dec := sin dec0 in
  fun i j => match i, j with
  | 0%nat, 0%nat => c_d_ra
  | 0%nat, 1%nat => s_old_dec * s_d_ra
  | 0%nat, _ => - c_old_dec * s_d_ra
  | 1%nat, 0%nat => - s_new_dec * s_d_ra
  | 1%nat, 1%nat => s_new_dec * s_old_dec * c_d_ra + c_new_dec * c_old_dec
  | 1%nat, _ => - c_old_dec * s_new_dec * c_d_ra + c_new_dec * s_old_dec
  | _, 0%nat => c_new_dec * s_d_ra
  | _, 1%nat => - c_new_dec * s_old_dec * c_d_ra + s_new_dec * c_old_dec
  | _, _ => c_new_dec * c_old_dec * c_d_ra + s_new_dec * s_old_dec
  end.
(* lines 9-49: the three assignments in order, in place, reading index 3 *)
Definition uvw_rotate (uvw : arr R) (r : nat) (ra0 dec0 ra dec : R) : arr R :=
  let m := rot_matrix ra0 dec0 ra dec in
  let row i uvw := m i 0%nat * uvw (comp r 0) + m i 1%nat * uvw (comp r 1) + m i 2%nat * uvw (comp r 3) in
  let uvw := upd uvw (comp r 0) (row 0%nat uvw) in
  let uvw := upd uvw (comp r 1) (row 1%nat uvw) in
  upd uvw (comp r 2) (row 2%nat uvw).
(* lines 53-79 *)
Definition uvw_planarwapprox (uvw : arr R) (r : nat) (ra0 dec0 ra dec : R) : arr R :=
  let d_ra := ra - ra0 in
  let c_d_ra := cos d_ra in
  let s_d_ra := sin d_ra in
  let c_new_dec := cos dec in
  let c_old_dec := cos dec0 in
  let s_new_dec := sin dec in
  let s_old_dec := sin dec0 in
  let li0 := c_new_dec * s_d_ra in
  let mi0 := s_new_dec * c_old_dec - c_new_dec * s_old_dec * c_d_ra in
  let ni0 := s_new_dec * s_old_dec + c_new_dec * c_old_dec * c_d_ra in
  let uvw := upd uvw (comp r 0) (uvw (comp r 0) - uvw (comp r 2) * li0 / ni0) in
  upd uvw (comp r 1) (uvw (comp r 1) - uvw (comp r 2) * mi0 / ni0).
(* lines 86-95 *)
Definition baseline_policy (p : string) : res (arr R -> nat -> R -> R -> R -> R -> arr R) :=
  if (p =? "None")%string then Ok (fun uvw _ _ _ _ _ => uvw)
  else if (p =? "rotate")%string then Ok uvw_rotate
  else if (p =? "wlinapprox")%string then Ok uvw_planarwapprox
  else Raise ValueError.
