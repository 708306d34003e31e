(* Model of /repo/africanus/gps/examples/generate_phase_only_gains.py over the real and complex numbers.  Left out: the
   command line, reading and writing of files, rounding, several spectral windows.  Times are integers in some unit. *)
From Coq Require Import Reals.
From Verif Require Import Prelude CRing CplxR NumpyModel AvgModel KronModel GpsModel CoordModel ScreenModel.
Close Scope R_scope.
Open Scope nat_scope.

(* Not an exception of Python: an axis was divided by zero, and its NaNs are in every gain or stop np.linalg.cholesky,
   depending on the LAPACK library. *)
Definition NaNs : exn := UserExn 1.
(* x.min() of n > 0 numbers *)
Fixpoint fmin (n : nat) (x : arr R) : R := match n with O => x 0 | S k => match k with O => x 0 | _ => Rmin (fmin k x) (x k) end end.
(* lines 37-38 and 48-49: x -= x.min(); x /= x.max().  None: division by zero *)
Definition normalise (n : nat) (x : arr R) : option (arr R) :=
  let y := fun i => (x i - fmin n x)%R in
  if Req_EM_T (fmax n y) 0%R then None else Some (fun i => (y i / fmax n y)%R).
(* a matrix of cov_func, lines 41, 52, 59 *)
Definition cov (x : points) (sigmaf l : R) : res (mat RR) :=
  do! (N, Np, k) <- exponential_squared x x sigmaf l;
  Ok {| m_r := N; m_c := Np; m_e := k : nat -> nat -> RR |}.
(* line 34: the largest antenna and one *)
Fixpoint antennas (n : nat) (ant1 ant2 : arr nat) : nat :=
  match n with O => 0 | S k => Nat.max (antennas k ant1 ant2) (S (Nat.max (ant1 k) (ant2 k))) end.
(* kt.kron_matvec(L, xi).reshape(n_time, n_freq, n_dir), lines 69 and 72 *)
Definition sample (L : list (mat RR)) (nt nf nd : nat) (xi : arr R) : res (nat -> nat -> nat -> R) :=
  do! x <- kron_matvec L {| x_n := nt * nf * nd; x_e := xi : nat -> RR |};
  if negb (Nat.eqb (x_n x) (nt * nf * nd)) then Raise ValueError
  else Ok (fun t f d => x_e x ((t * nf + f) * nd + d) : R).

(* lines 29-76.  sources are the two columns of the sky model; chol is np.linalg.cholesky; noise p c holds the normal
   numbers drawn for antenna p and correlation c.  Result: the first four sizes and the gains. *)
Definition phase_only_gains (chol : mat RR -> res (mat RR)) (nrow : nat) (time : arr Z) (ant1 ant2 : arr nat) (nchan : nat) (freq : arr R)
    (sources : list (R * R)) (noise : nat -> nat -> arr R) : res (nat * nat * nat * nat * (nat -> nat -> nat -> nat -> nat -> RC)) :=
  if Nat.eqb nrow 0 then Raise ValueError else                    (* max() of nothing *)
  let n_ant := antennas nrow ant1 ant2 in
  let '(us, _, _, _) := unique_internal Z.ltb zneqb nrow time in
  let n_time := length us in
  let time1 := normalise n_time (fun t => IZR (nth t us 0%Z)) in
  if Nat.eqb nchan 0 then Raise ValueError else                   (* min() of nothing *)
  let freq1 := normalise nchan freq in
  (* lines 55-56: np.loadtxt of one source has one dimension, which radec_to_lm does not take; so for an empty file *)
  if Nat.ltb (length sources) 2 then Raise TypeError else
  let n_dir := length sources in
  do! lm <- radec_to_lm n_dir 2 (fun d i => match i with O => fst (nth d sources (0, 0)%R) | _ => snd (nth d sources (0, 0)%R) end) None;
  (* lines 62-63: three matrices of one shape become one array of three dimensions of objects, and cholesky does not
     take arrays of objects *)
  if (Nat.eqb n_time nchan && Nat.eqb nchan n_dir)%bool then Raise TypeError else
  match time1, freq1 with
  | Some time1, Some freq1 =>
      do! time_cov <- cov (Pflat n_time time1) (1 / 4)%R (1 / 5)%R;
      do! freq_cov <- cov (Pflat nchan freq1) 1%R (1 / 4)%R;
      do! lm_cov <- cov (P2 n_dir 2 lm) 1%R (1 / 2)%R;
      do! L <- kron_cholesky chol ((1 / 10 ^ 13)%R : RR) [time_cov; freq_cov; lm_cov];
      do! gains <- forM n_ant (fun p (g : nat -> nat -> nat -> nat -> nat -> R) =>
        do! samp0 <- sample L n_time nchan n_dir (noise p 0);
        do! samp1 <- sample L n_time nchan n_dir (noise p 1);
        Ok (fun t q f d c => if Nat.eqb q p then (if Nat.eqb c 0 then samp0 t f d else samp1 t f d) else g t q f d c))
        (fun _ _ _ _ _ => 0%R);
      Ok (n_time, n_ant, nchan, n_dir, fun t p f d c => cis (gains t p f d c))
  | _, _ => Raise NaNs
  end.
