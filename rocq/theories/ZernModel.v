(* Model of /repo/africanus/rime/zernike.py over the real and complex numbers.  Rounding and integer overflow of the
   factorials are not modelled. *)
From Coq Require Import Reals.
From Verif Require Import Prelude CRing CplxR DftModel.
Open Scope R_scope.

(* lines 8-16 *)
Definition fac (x : Z) : res Z :=
  if Z.ltb x 0 then Raise ValueError
  else if Z.eqb x 0 then Ok 1%Z
  else Ok (for_ (Z.to_nat x) (fun i factorial => factorial * (Z.of_nat i + 1))%Z 1%Z).
(* lines 19-23; (n+m)/2 and (n-m)/2 are exact because n and m have the same parity in every call *)
Definition pre_fac (k n m : Z) : res R :=
  do! fn <- fac (n - k);
  let numerator := (-1) ^ (Z.to_nat k) * IZR fn in
  do! a <- fac k;
  do! b <- fac ((n + m) / 2 - k);
  do! c <- fac ((n - m) / 2 - k);
  Ok (numerator / IZR (a * b * c)).
(* lines 26-33 *)
Definition zernike_rad (m n : Z) (rho : R) : res R :=
  if (Z.ltb n 0 || Z.ltb m 0 || Z.ltb n (Z.abs m))%bool then Raise ValueError
  else forM (Z.to_nat ((n - m) / 2 + 1)) (fun k radial_component =>
    do! p <- pre_fac (Z.of_nat k) n m;
    Ok (radial_component + p * rho ^ (Z.to_nat (n - 2 * Z.of_nat k)))) 0.
(* lines 42-44: the while loop; fuel bounds the number of steps *)
Fixpoint noll_loop (fuel n j1 : nat) : nat * nat :=
  match fuel with
  | O => (n, j1)
  | S fuel => if Nat.ltb n j1 then noll_loop fuel (n + 1) (j1 - (n + 1)) else (n, j1)
  end.
(* lines 40-45: (n, m) of a non-negative index *)
Definition noll (j : nat) : nat * Z :=
  let jj := (j + 1)%nat in
  let '(n, j1) := noll_loop jj 0 (jj - 1) in
  (n, ((if Nat.even jj then 1 else -1) * Z.of_nat (n mod 2 + 2 * ((j1 + (n + 1) mod 2) / 2)))%Z).
(* lines 36-50 *)
Definition zernike (j : nat) (rho phi : R) : res R :=
  if Rlt_dec 1 rho then Ok 0 else
  let '(n, m) := noll j in
  if Z.ltb 0 m then do! r <- zernike_rad m (Z.of_nat n) rho; Ok (r * cos (IZR m * phi))
  else if Z.ltb m 0 then do! r <- zernike_rad (- m) (Z.of_nat n) rho; Ok (r * sin (- IZR m * phi))
  else zernike_rad 0 (Z.of_nat n) rho.
(* numpy.arctan2 on finite reals *)
Definition arctan2 (y x : R) : R :=
  if Rlt_dec 0 x then atan (y / x)
  else if Rlt_dec x 0 then (if Rlt_dec y 0 then atan (y / x) - PI else atan (y / x) + PI)
  else if Rlt_dec 0 y then PI / 2 else if Rlt_dec y 0 then - (PI / 2) else 0.
(* lines 53-56 *)
Definition convert_coords (l m : R) : R * R := (sqrt (l ^ 2 + m ^ 2), arctan2 l m).
Definition upd5 {A} (x : nat -> nat -> nat -> nat -> nat -> A) (s t a c co : nat) (v : A) : nat -> nat -> nat -> nat -> nat -> A :=
  fun s' t' a' c' co' => if (Nat.eqb s' s && Nat.eqb t' t && Nat.eqb a' a && Nat.eqb c' c && Nat.eqb co' co)%bool then v else x s' t' a' c' co'.
(* lines 59-81 and the wrapper 84-100 with correlations flattened *)
Definition zernike_dde (sources times ants chans corrs npoly : nat) (coords : nat -> nat -> nat -> nat -> nat -> R)
    (coeffs : nat -> nat -> nat -> nat -> RC) (noll_index : nat -> nat -> nat -> nat -> nat) : res (nat -> nat -> nat -> nat -> nat -> RC) :=
  forM sources (fun s => forM times (fun t => forM ants (fun a => forM chans (fun c st =>
    let '(rho, phi) := convert_coords (coords 0%nat s t a c) (coords 1%nat s t a c) in
    forM corrs (fun co st =>
      do! zernike_sum <- forM npoly (fun p zernike_sum =>
        do! z <- zernike (noll_index a c co p) rho phi;
        Ok (cadd zernike_sum (cmul (coeffs a c co p) (ofR z)))) (c0 : RC);
      Ok (upd5 st s t a c co zernike_sum)) st)))) (fun _ _ _ _ _ => c0).
(* rime/dask.py:150-172: each block gets the first block of the coordinate and polynomial dimensions.  The
   coordinate dimension is one chunk. *)
Definition dask_zernike_dde (src times ants chans corrs poly : list nat) (coords : nat -> nat -> nat -> nat -> nat -> R)
    (coeffs : nat -> nat -> nat -> nat -> RC) (noll_index : nat -> nat -> nat -> nat -> nat) (s t a c co : nat) : res RC :=
  let '(s0, ns) := locate O src s in
  let '(t0, nt) := locate O times t in
  let '(a0, na) := locate O ants a in
  let '(f0, nf) := locate O chans c in
  let '(k0, nk) := locate O corrs co in
  do! block <- zernike_dde ns nt na nf nk (hd O poly) (fun x i j k l => coords x (s0 + i)%nat (t0 + j)%nat (a0 + k)%nat (f0 + l)%nat)
    (fun i j k p => coeffs (a0 + i)%nat (f0 + j)%nat (k0 + k)%nat p) (fun i j k p => noll_index (a0 + i)%nat (f0 + j)%nat (k0 + k)%nat p);
  Ok (block (s - s0)%nat (t - t0)%nat (a - a0)%nat (c - f0)%nat (co - k0)%nat).
