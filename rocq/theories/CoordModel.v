(* Model of /repo/africanus/coordinates/coordinates.py and coordinates/dask.py over the real numbers: trigonometric
   functions are exact, the square root of a negative number and 0/0 are not modelled (numpy gives NaN). *)
From Coq Require Import Reals.
From Verif Require Import Prelude DftModel.
Open Scope R_scope.

(* lines 17-24: the phase centre defaults to (0, 0) *)
Definition phase_centre_of (pc : option (R * R)) : R * R := match pc with None => (0, 0) | Some c => c end.
(* lines 27-63 *)
Definition radec_to_lmn (sources components : nat) (radec : arr2 R) (pc : option (R * R)) : res (arr2 R) :=
  if negb (Nat.eqb components 2) then Raise ValueError else
  let '(pc_ra, pc_dec) := phase_centre_of pc in
  let sin_pc_dec := sin pc_dec in
  let cos_pc_dec := cos pc_dec in
  Ok (for_ sources (fun s lmn =>
    let ra_delta := radec s 0%nat - pc_ra in
    let sin_ra_delta := sin ra_delta in
    let cos_ra_delta := cos ra_delta in
    let sin_dec := sin (radec s 1%nat) in
    let cos_dec := cos (radec s 1%nat) in
    let l := cos_dec * sin_ra_delta in
    let lmn := upd2 lmn s 0 l in
    let m := sin_dec * cos_pc_dec - cos_dec * sin_pc_dec * cos_ra_delta in
    let lmn := upd2 lmn s 1 m in
    upd2 lmn s 2 (sqrt (1 - l ^ 2 - m ^ 2))) (fun _ _ => 0)).
(* lines 66-100 *)
Definition radec_to_lm (sources components : nat) (radec : arr2 R) (pc : option (R * R)) : res (arr2 R) :=
  if negb (Nat.eqb components 2) then Raise ValueError else
  let '(pc_ra, pc_dec) := phase_centre_of pc in
  let sin_pc_dec := sin pc_dec in
  let cos_pc_dec := cos pc_dec in
  Ok (for_ sources (fun s lm =>
    let da := radec s 0%nat - pc_ra in
    let sin_ra_delta := sin da in
    let cos_ra_delta := cos da in
    let sin_dec := sin (radec s 1%nat) in
    let cos_dec := cos (radec s 1%nat) in
    let lm := upd2 lm s 0 (cos_dec * sin_ra_delta) in
    upd2 lm s 1 (sin_dec * cos_pc_dec - cos_dec * sin_pc_dec * cos_ra_delta)) (fun _ _ => 0)).
(* lines 103-131 *)
Definition lmn_to_radec (sources components : nat) (lmn : arr2 R) (pc : option (R * R)) : res (arr2 R) :=
  if negb (Nat.eqb components 3) then Raise ValueError else
  let '(pc_ra, pc_dec) := phase_centre_of pc in
  let sin_pc_dec := sin pc_dec in
  let cos_pc_dec := cos pc_dec in
  Ok (for_ sources (fun s radec =>
    let l := lmn s 0%nat in let m := lmn s 1%nat in let n := lmn s 2%nat in
    let radec := upd2 radec s 1 (asin (m * cos_pc_dec + n * sin_pc_dec)) in
    upd2 radec s 0 (pc_ra + atan (l / (n * cos_pc_dec - m * sin_pc_dec)))) (fun _ _ => 0)).
(* lines 134-162 *)
Definition lm_to_radec (sources components : nat) (lm : arr2 R) (pc : option (R * R)) : res (arr2 R) :=
  if negb (Nat.eqb components 2) then Raise ValueError else
  let '(pc_ra, pc_dec) := phase_centre_of pc in
  let sin_pc_dec := sin pc_dec in
  let cos_pc_dec := cos pc_dec in
  Ok (for_ sources (fun s radec =>
    let l := lm s 0%nat in let m := lm s 1%nat in
    let n := sqrt (1 - l ^ 2 - m ^ 2) in
    let radec := upd2 radec s 1 (asin (m * cos_pc_dec + n * sin_pc_dec)) in
    upd2 radec s 0 (pc_ra + atan (l / (n * cos_pc_dec - m * sin_pc_dec)))) (fun _ _ => 0)).
(* coordinates/dask.py:22-84: each function is applied to every chunk of sources; the component dimensions and the
   phase centre are single chunks *)
Definition dask_coords (f : nat -> nat -> arr2 R -> option (R * R) -> res (arr2 R)) (sources : list nat) (components : nat) (x : arr2 R)
    (pc : option (R * R)) (s c : nat) : res R :=
  let '(s0, ns) := locate O sources s in
  do! block <- f ns components (fun i => x (s0 + i)%nat) pc;
  Ok (block (s - s0)%nat c).
