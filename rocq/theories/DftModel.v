(* Model of /repo/africanus/dft/kernels.py and dft/dask.py over the reals.
   Rounding, dtypes and NaN (l*l + m*m > 1) are not modelled. *)
From Coq Require Import Reals String.
From Verif Require Import Prelude CRing CplxR RimeModel.
Open Scope R_scope.

(* truth value of a complex number *)
Definition truthy (z : RC) : bool := if Req_EM_T (fst z) 0 then (if Req_EM_T (snd z) 0 then false else true) else true.

(* kernels.py:27-32 *)
Definition im_constant (convention : string) : res R :=
  if String.eqb convention "fourier" then Ok minus_two_pi_over_c
  else if String.eqb convention "casa" then Ok two_pi_over_c
  else Raise ValueError.
(* kernels.py:38-60 *)
Definition im_to_vis_body (constant : R) (nrows nsrc nchan ncorr : nat) (image : arr3 RC) (uvw lm : arr2 R) (frequency : arr R) : arr3 RC :=
  for_ nrows (fun r vis =>
    let u := uvw r 0%nat in let v := uvw r 1%nat in let w := uvw r 2%nat in
    for_ nsrc (fun s vis =>
      let l := lm s 0%nat in let m := lm s 1%nat in
      let n := sqrt (1 - l ^ 2 - m ^ 2) - 1 in
      let real_phase := constant * (l * u + m * v + n * w) in
      for_ nchan (fun nu vis =>
        let p := real_phase * frequency nu in
        for_ ncorr (fun c vis =>
          if truthy (image s nu c)
          then upd3 vis r nu c (cadd (vis r nu c) (cmul (cis p) (image s nu c)))
          else vis) vis) vis) vis)
    (fun _ _ _ => (c0 : RC)).
Definition im_to_vis (nrows nsrc nchan ncorr : nat) (image : arr3 RC) (uvw lm : arr2 R) (frequency : arr R) (convention : string) : res (arr3 RC) :=
  do! constant <- im_constant convention;
  Ok (im_to_vis_body constant nrows nsrc nchan ncorr image uvw lm frequency).

(* kernels.py:94-99 *)
Definition vis_constant (convention : string) : res R :=
  if String.eqb convention "fourier" then Ok two_pi_over_c
  else if String.eqb convention "casa" then Ok minus_two_pi_over_c
  else Raise ValueError.
Fixpoint any_flag (ncorr : nat) (flags : arr bool) : bool :=
  match ncorr with O => false | S k => (any_flag k flags || flags k)%bool end.
(* kernels.py:101-130 *)
Definition vis_to_im_body (constant : R) (nrows nsrc nchan ncorr : nat) (vis : arr3 RC) (uvw lm : arr2 R) (frequency : arr R) (flags : arr3 bool) : arr3 R :=
  for_ nsrc (fun s img =>
    let l := lm s 0%nat in let m := lm s 1%nat in
    let n := sqrt (1 - l ^ 2 - m ^ 2) - 1 in
    for_ nrows (fun r img =>
      let u := uvw r 0%nat in let v := uvw r 1%nat in let w := uvw r 2%nat in
      let real_phase := constant * (l * u + m * v + n * w) in
      for_ nchan (fun nu img =>
        let p := real_phase * frequency nu in
        if any_flag ncorr (flags r nu) then img
        else for_ ncorr (fun c img =>
          upd3 img s nu c (img s nu c + (cos p * fst (vis r nu c) - sin p * snd (vis r nu c)))) img) img) img)
    (fun _ _ _ => 0).
(* line 85: shapes of visibilities and flags must agree *)
Definition vis_to_im (nrows nsrc nchan ncorr : nat) (same_shape : bool) (vis : arr3 RC) (uvw lm : arr2 R) (frequency : arr R) (flags : arr3 bool) (convention : string) : res (arr3 R) :=
  if negb same_shape then Raise AssertionError else
  do! constant <- vis_constant convention;
  Ok (vis_to_im_body constant nrows nsrc nchan ncorr vis uvw lm frequency flags).

(* ---------- dft/dask.py ---------- *)
(* the chunk (start, size) of a dimension that holds index i *)
Fixpoint locate (start : nat) (chunks : list nat) (i : nat) : nat * nat :=
  match chunks with
  | [] => (start, O)
  | n :: rest => if Nat.ltb i (start + n) then (start, n) else locate (start + n) rest i
  end.
Definition nats_eqb (a b : list nat) : bool := if list_eq_dec Nat.eq_dec a b then true else false.
(* dask.py:20-48: element (r, nu, c) of the result comes from the block holding it.  The graph is
   evaluated: a bad convention raises when the blocks run. *)
Definition dask_im_to_vis (rows lm_src im_src im_chan im_corr freq_chan : list nat)
    (image : arr3 RC) (uvw lm : arr2 R) (frequency : arr R) (convention : string) : res (arr3 RC) :=
  if negb (Nat.eqb (hd O lm_src) (list_sum lm_src)) then Raise ValueError
  else if negb (Nat.eqb (hd O im_src) (list_sum im_src)) then Raise ValueError
  else if negb (Nat.eqb (hd O im_src) (hd O lm_src)) then Raise ValueError
  else if negb (nats_eqb im_chan freq_chan) then Raise ValueError
  else
    do! constant <- im_constant convention;
    Ok (fun r nu c =>
      let '(r0, nr) := locate O rows r in
      let '(f0, nf) := locate O im_chan nu in
      let '(k0, nk) := locate O im_corr c in
      im_to_vis_body constant nr (hd O lm_src) nf nk
        (fun s f k => image s (f0 + f)%nat (k0 + k)%nat) (fun i => uvw (r0 + i)%nat) lm (fun f => frequency (f0 + f)%nat)
        (r - r0)%nat (nu - f0)%nat (c - k0)%nat).

(* starts of the chunks of a dimension *)
Fixpoint starts (start : nat) (chunks : list nat) : list (nat * nat) :=
  match chunks with [] => [] | n :: rest => (start, n) :: starts (start + n) rest end.
(* dask.py:51-86: one image per row chunk, then summed over the row chunks *)
Definition dask_vis_to_im (vis_row vis_chan vis_corr : list nat) (uvw_row src freq_chan flag_row flag_chan flag_corr : list nat)
    (vis : arr3 RC) (uvw lm : arr2 R) (frequency : arr R) (flags : arr3 bool) (convention : string) : res (arr3 R) :=
  if negb (nats_eqb vis_row uvw_row) then Raise ValueError
  else if negb (nats_eqb vis_chan freq_chan) then Raise ValueError
  else if negb (nats_eqb vis_row flag_row && nats_eqb vis_chan flag_chan && nats_eqb vis_corr flag_corr)%bool then Raise ValueError
  else
    do! constant <- vis_constant convention;
    Ok (fun s nu c =>
      let '(s0, ns) := locate O src s in
      let '(f0, nf) := locate O vis_chan nu in
      let '(k0, nk) := locate O vis_corr c in
      fold_right (fun '(r0, nr) acc =>
        vis_to_im_body constant nr ns nf nk
          (fun r f k => vis (r0 + r)%nat (f0 + f)%nat (k0 + k)%nat) (fun i => uvw (r0 + i)%nat)
          (fun i => lm (s0 + i)%nat) (fun f => frequency (f0 + f)%nat)
          (fun r f k => flags (r0 + r)%nat (f0 + f)%nat (k0 + k)%nat)
          (s - s0)%nat (nu - f0)%nat (c - k0)%nat + acc) 0 (starts O vis_row)).
