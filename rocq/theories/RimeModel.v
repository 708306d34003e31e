(* Model of /repo/africanus/rime/phase.py, feeds.py, transform.py and parangles.py over the reals.
   Floating point rounding and NaN are not modelled: where the code takes the square root of a
   negative number (l*l + m*m > 1) it produces NaN, here sqrt is 0. *)
From Coq Require Import Reals String.
From Verif Require Import Prelude CRing CplxR.
Open Scope R_scope.

(* constants/consts.py:9-12 *)
Definition lightspeed : R := 299792458.
Definition two_pi_over_c : R := 2 * PI / lightspeed.
Definition minus_two_pi_over_c : R := - two_pi_over_c.

(* ---------- rime/phase.py:12-52 ---------- *)
(* lines 19-24 *)
Definition phase_constant (convention : string) : res R :=
  if String.eqb convention "fourier" then Ok minus_two_pi_over_c
  else if String.eqb convention "casa" then Ok (- minus_two_pi_over_c)
  else Raise ValueError.
(* lines 26-50; lm is (source, 2), uvw is (row, 3) *)
Definition phase_delay (nsrc nrow nchan : nat) (lm uvw : arr2 R) (frequency : arr R) (convention : string) : res (arr3 RC) :=
  do! constant <- phase_constant convention;
  Ok (for_ nsrc (fun source k =>
        let l := lm source 0%nat in let m := lm source 1%nat in
        let n := sqrt (1 - l ^ 2 - m ^ 2) - 1 in
        for_ nrow (fun row k =>
          let u := uvw row 0%nat in let v := uvw row 1%nat in let w := uvw row 2%nat in
          let real_phase := constant * (l * u + m * v + n * w) in
          for_ nchan (fun chan k =>
            let p := real_phase * frequency chan in
            let k1 := upd3 k source row chan ((cos p, snd (k source row chan)) : RC) in
            upd3 k1 source row chan ((fst (k1 source row chan), sin p) : RC)) k) k)
      (fun _ _ _ => (c0 : RC))).

(* ---------- rime/feeds.py ---------- *)
(* lines 14-48; the parallactic angles are flattened, n of them *)
Definition nb_feed_rotation (n : nat) (pa : arr R) (feed_type : nat) (out : arr3 RC) : res (arr3 RC) :=
  if Nat.eqb feed_type 0 then
    Ok (for_ n (fun i o =>
      let pa_cos := cos (pa i) in let pa_sin := sin (pa i) in
      let o := upd3 o i 0%nat 0%nat ((pa_cos, 0) : RC) in
      let o := upd3 o i 0%nat 1%nat ((pa_sin, 0) : RC) in
      let o := upd3 o i 1%nat 0%nat ((- pa_sin, 0) : RC) in
      upd3 o i 1%nat 1%nat ((pa_cos, 0) : RC)) out)
  else if Nat.eqb feed_type 1 then
    Ok (for_ n (fun i o =>
      let pa_cos := cos (pa i) in let pa_sin := sin (pa i) in
      let o := upd3 o i 0%nat 0%nat ((pa_cos, - pa_sin) : RC) in
      let o := upd3 o i 0%nat 1%nat ((0, 0) : RC) in
      let o := upd3 o i 1%nat 0%nat ((0, 0) : RC) in
      upd3 o i 1%nat 1%nat ((pa_cos, pa_sin) : RC)) out)
  else Raise ValueError.
(* lines 51-72; is_float: the angles have dtype float32 or float64; garbage is np.empty *)
Definition feed_rotation (n : nat) (pa : arr R) (is_float : bool) (feed_type : string) (garbage : arr3 RC) : res (arr3 RC) :=
  do! poltype <- (if String.eqb feed_type "linear" then Ok 0%nat
                  else if String.eqb feed_type "circular" then Ok 1%nat else Raise ValueError);
  if is_float then nb_feed_rotation n pa poltype garbage else Raise ValueError.

(* ---------- rime/transform.py:12-96 ---------- *)
(* coords is (3, source, time, antenna, chan); its first index is the outermost function argument *)
Definition coords5 : Type := nat -> nat -> nat -> arr2 R.
Definition set5 (x : coords5) (i s t a c : nat) (v : R) : coords5 :=
  fun i' s' t' a' c' => if (Nat.eqb i' i && Nat.eqb s' s && Nat.eqb t' t && Nat.eqb a' a && Nat.eqb c' c)%bool then v else x i' s' t' a' c'.
(* lines 12-43: line 30 overwrites l before line 31 reads it *)
Definition nb_transform_sources (nsrc ntime na nchan : nat) (lm : arr2 R) (pangles : arr2 R) (perr : arr3 R)
    (scaling : arr2 R) (frequency : arr R) (coords : coords5) : coords5 :=
  for_ ntime (fun t x =>
    for_ na (fun a x =>
      let pa_sin := sin (pangles t a) in let pa_cos := cos (pangles t a) in
      for_ nsrc (fun s x =>
        let l := lm s 0%nat in let m := lm s 1%nat in
        let l := l * pa_cos - m * pa_sin in
        let m := l * pa_sin + m * pa_cos in
        let l := l + perr t a 0%nat in
        let m := m + perr t a 1%nat in
        for_ nchan (fun c x =>
          let x := set5 x 0 s t a c (l * scaling a c) in
          let x := set5 x 1 s t a c (m * scaling a c) in
          set5 x 2 s t a c (frequency c)) x) x) x) coords.
(* lines 86-96: shapes are checked by assertions *)
Definition transform_sources (lm_shape : nat) (pa_shape perr_time perr_ant scal_chan freq_chan : nat) (na : nat)
    (lm pangles : arr2 R) (perr : arr3 R) (scaling : arr2 R) (frequency : arr R) (garbage : coords5) : res coords5 :=
  if negb (Nat.eqb pa_shape perr_time && Nat.eqb na perr_ant)%bool then Raise AssertionError
  else if negb (Nat.eqb scal_chan freq_chan) then Raise AssertionError
  else Ok (nb_transform_sources lm_shape pa_shape na scal_chan lm pangles perr scaling frequency garbage).

(* ---------- rime/parangles.py:54-75 ---------- *)
(* the two library backends are parameters; fc is the length of the field centre *)
Definition parallactic_angles (casa astropy : res (arr2 R)) (times : arr R) (positions : arr2 R) (fc : nat) (backend : string) : res (arr2 R) :=
  if negb (String.eqb backend "casa" || String.eqb backend "astropy" || String.eqb backend "test")%bool then Raise ValueError
  else if negb (Nat.eqb fc 2) then Raise ValueError
  else if String.eqb backend "astropy" then astropy
  else if String.eqb backend "casa" then casa
  else if String.eqb backend "test" then
    Ok (fun t a => times t * (positions a 0%nat + positions a 1%nat + positions a 2%nat))
  else Raise ValueError.
