(* Model of /repo/africanus/rime/fast_beam_cubes.py over the real and complex numbers.  Rounding, integer
   overflow, NaN and infinities are not modelled; every read of the beam cube is bounds checked. *)
From Coq Require Import Reals.
From Verif Require Import Prelude CRing CplxR.
Open Scope R_scope.

(* lines 21-31: the binary search; the loop state is (lower, upper).  fuel bounds the number of steps. *)
Fixpoint grid_search (fuel : nat) (grid : arr R) (freq : R) (lower upper : Z) : Z * Z :=
  match fuel with
  | O => (lower, upper)
  | S fuel =>
      if Z.leb lower upper then
        let mid := (lower + (upper - lower) / 2)%Z in
        let beam_freq := grid (Z.to_nat mid) in
        if Rlt_dec beam_freq freq then grid_search fuel grid freq (mid + 1) upper
        else if Rlt_dec freq beam_freq then grid_search fuel grid freq lower (mid - 1)
        else (mid, upper)
      else (lower, upper)
  end.
(* lines 10-55 for one frequency: scaling, lower weight, lower grid position *)
Definition freq_grid_interp (beam_nud : nat) (beam_freq_map : arr R) (freq : R) : R * R * Z :=
  let n := Z.of_nat beam_nud in
  let '(lower, upper) := grid_search (S beam_nud) beam_freq_map freq 0 (n - 1) in
  let lower := Z.min lower upper in
  let upper := (lower + 1)%Z in
  if Z.eqb lower (-1) then (freq / beam_freq_map 0%nat, 1, 0%Z)
  else if Z.eqb upper n then (freq / beam_freq_map (beam_nud - 1)%nat, 0, (n - 2)%Z)
  else
    let freq_low := beam_freq_map (Z.to_nat lower) in
    let freq_high := beam_freq_map (Z.to_nat upper) in
    let freq_diff := freq_high - freq_low in
    (1, (freq_high - freq) / freq_diff, lower).

Definition cabs (z : RC) : R := sqrt (norm2 z).
(* the beam cube with flattened correlations *)
Record cube : Type := { b_lw : nat; b_mh : nat; b_nud : nat; b_at : nat -> nat -> nat -> arr RC }.
Definition in_axis (n : nat) (i : Z) : bool := (Z.leb 0 i && Z.ltb i (Z.of_nat n))%bool.
Definition cube_get (b : cube) (l m k : Z) : res (arr RC) :=
  if (in_axis (b_lw b) l && in_axis (b_mh b) m && in_axis (b_nud b) k)%bool
  then Ok (b_at b (Z.to_nat l) (Z.to_nat m) (Z.to_nat k)) else Raise IndexError.
(* lines 166-171 and the seven like them *)
Definition accumulate (b : cube) (l m k : Z) (weight : R) (st : arr R * arr RC) : res (arr R * arr RC) :=
  do! beam_scratch <- cube_get b l m k;
  Ok (fun c => fst st c + weight * cabs (beam_scratch c), fun c => cadd (snd st c) (cmul (ofR weight) (beam_scratch c))).
(* lines 221-229 *)
Definition normalise (absc : R) (corr : RC) : RC :=
  let div := cabs corr in
  if Req_EM_T div 0 then cmul corr (ofR absc) else cmul corr (ofR (absc / div)).
(* lines 109-232: the Jones term of one source, time, antenna and channel *)
Definition beam_point (b : cube) (lower_l upper_l lower_m upper_m : R) (l m sin_pa cos_pa pe_l pe_m as_l as_m : R) (freq_data : R * R * Z) : res (arr RC) :=
  let lmaxi := (Z.of_nat (b_lw b) - 1)%Z in
  let mmaxi := (Z.of_nat (b_mh b) - 1)%Z in
  let lmaxf := IZR lmaxi in
  let mmaxf := IZR mmaxi in
  let lscale := lmaxf / (upper_l - lower_l) in
  let mscale := mmaxf / (upper_m - lower_m) in
  let '(freq_scale, nud, gc0) := freq_data in
  let inv_nud := 1 - nud in
  let gc1 := (gc0 + 1)%Z in
  let sl := l * freq_scale in
  let sm := m * freq_scale in
  let tl := sl + pe_l in
  let tm := sm + pe_m in
  let vl := tl * cos_pa - tm * sin_pa in
  let vm := tl * sin_pa + tm * cos_pa in
  let vl := vl * as_l in
  let vm := vm * as_m in
  let vl := lscale * (vl - lower_l) in
  let vm := mscale * (vm - lower_m) in
  let vl := Rmax 0 (Rmin vl lmaxf) in
  let vm := Rmax 0 (Rmin vm mmaxf) in
  let gl0 := Int_part vl in
  let gm0 := Int_part vm in
  let gl1 := Z.min (gl0 + 1) lmaxi in
  let gm1 := Z.min (gm0 + 1) mmaxi in
  let ld := vl - IZR gl0 in
  let md := vm - IZR gm0 in
  do! st <- accumulate b gl0 gm0 gc0 ((1 - ld) * (1 - md) * nud) (fun _ => 0, fun _ => c0);
  do! st <- accumulate b gl1 gm0 gc0 (ld * (1 - md) * nud) st;
  do! st <- accumulate b gl0 gm1 gc0 ((1 - ld) * md * nud) st;
  do! st <- accumulate b gl1 gm1 gc0 (ld * md * nud) st;
  do! st <- accumulate b gl0 gm0 gc1 ((1 - ld) * (1 - md) * inv_nud) st;
  do! st <- accumulate b gl1 gm0 gc1 (ld * (1 - md) * inv_nud) st;
  do! st <- accumulate b gl0 gm1 gc1 ((1 - ld) * md * inv_nud) st;
  do! st <- accumulate b gl1 gm1 gc1 (ld * md * inv_nud) st;
  Ok (fun c => normalise (fst st c) (snd st c)).

(* arrays over (source, time, ant, chan) of vectors of correlations *)
Definition upd4 {A} (x : nat -> nat -> nat -> nat -> A) (s t a f : nat) (v : A) : nat -> nat -> nat -> nat -> A :=
  fun s' t' a' f' => if (Nat.eqb s' s && Nat.eqb t' t && Nat.eqb a' a && Nat.eqb f' f)%bool then v else x s' t' a' f'.
(* lines 58-234; ext is beam_lm_extents and nmap the length of beam_freq_map, which the code
   does not compare with the cube *)
Definition beam_cube_dde (b : cube) (ext : arr2 R) (nmap : nat) (beam_freq_map : arr R) (nsrc : nat) (lm : arr2 R) (ntime nants : nat) (pa : arr2 R)
    (point_errors : nat -> nat -> nat -> arr R) (antenna_scaling : arr3 R) (nchan : nat) (frequency : arr R)
  : res (nat -> nat -> nat -> nat -> arr RC) :=
  if (Nat.ltb (b_lw b) 2 || Nat.ltb (b_mh b) 2 || Nat.ltb (b_nud b) 2)%bool then Raise ValueError else
  let freq_data := fun f => freq_grid_interp nmap beam_freq_map (frequency f) in
  forM ntime (fun t => forM nants (fun a => forM nsrc (fun s => forM nchan (fun f st =>
    do! v <- beam_point b (ext 0 0)%nat (ext 0 1)%nat (ext 1 0)%nat (ext 1 1)%nat (lm s 0%nat) (lm s 1%nat) (sin (pa t a)) (cos (pa t a))
      (point_errors t a f 0%nat) (point_errors t a f 1%nat) (antenna_scaling a f 0%nat) (antenna_scaling a f 1%nat) (freq_data f);
    Ok (upd4 st s t a f v))))) (fun _ _ _ _ _ => c0).

From Verif Require Import DftModel.
(* rime/dask.py:107-147: chunks of every dimension of the beam, its frequency map and its extents, then the common chunks
   of the source, time, antenna and channel dimensions.  Each output element is read from the block that holds it; a block
   may raise when it runs.  The component dimensions are single chunks. *)
Definition single (chunks : list nat) : bool := Nat.eqb (List.length chunks) 1.
Definition dask_beam_cube_dde (beam_chunks map_chunks ext_chunks : list (list nat)) (src times ants chans : list nat)
    (b : cube) (ext : arr2 R) (nmap : nat) (beam_freq_map : arr R) (lm : arr2 R) (pa : arr2 R)
    (point_errors : nat -> nat -> nat -> arr R) (antenna_scaling : arr3 R) (frequency : arr R)
  : res (nat -> nat -> nat -> nat -> res (arr RC)) :=
  if negb (forallb single beam_chunks) then Raise ValueError
  else if negb (forallb single map_chunks) then Raise ValueError
  else if negb (forallb single ext_chunks) then Raise ValueError
  else Ok (fun s t a f =>
    let '(s0, ns) := locate O src s in
    let '(t0, nt) := locate O times t in
    let '(a0, na) := locate O ants a in
    let '(f0, nf) := locate O chans f in
    do! block <- beam_cube_dde b ext nmap beam_freq_map ns (fun i => lm (s0 + i)%nat) nt na (fun i j => pa (t0 + i)%nat (a0 + j)%nat)
      (fun i j k => point_errors (t0 + i)%nat (a0 + j)%nat (f0 + k)%nat) (fun j k => antenna_scaling (a0 + j)%nat (f0 + k)%nat)
      nf (fun k => frequency (f0 + k)%nat);
    Ok (block (s - s0)%nat (t - t0)%nat (a - a0)%nat (f - f0)%nat)).
