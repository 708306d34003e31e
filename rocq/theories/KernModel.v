(* Model of /repo/africanus/gridding/perleypolyhedron/kernels.py.  Numbers are exact reals and complex numbers.  Not modelled:
   kbsinc (Bessel functions) and the polynomial fits giving the default parameters. *)
From Coq Require Import Reals.
From Verif Require Import Prelude CRing CplxR.
Close Scope R_scope.
Open Scope nat_scope.

(* lines 16-35: the coordinates of the kernel samples, of which there are oversample * (W + 2) *)
Definition uspace (W oversample : nat) : res (arr R) :=
  if Nat.eqb (W mod 2) 1 then Ok (fun i => (INR i / INR oversample - INR ((W + 2) / 2))%R) else Raise AssertionError.
(* numpy.sinc *)
Definition np_sinc (x : R) : R := if Req_EM_T x 0 then 1%R else (sin (PI * x) / (PI * x))%R.
Definition np_sum (n : nat) (x : arr R) : R := for_ n (fun i s => (s + x i)%R) 0%R.
(* lines 38-44 *)
Definition sinc (W oversample : nat) (a : R) : res (arr R) :=
  do! u <- uspace W oversample;
  let res_ := fun i => np_sinc (u i * a)%R in
  Ok (fun i => (res_ i / np_sum (oversample * (W + 2)) res_)%R).
(* lines 74-84; a is given *)
Definition hanningsinc (W oversample : nat) (a : R) : res (arr R) :=
  do! u <- uspace W oversample;
  let wnd := fun i => (a + (1 - a) * cos (2 * PI / (INR (W + 2) + 1) * u i))%R in
  do! s <- sinc W oversample 1;
  let res_ := fun i => (s i * wnd i)%R in
  Ok (fun i => (res_ i / np_sum (oversample * (W + 2)) res_)%R).

(* number of elements of x[start::step] for an array of n elements *)
Definition stride_len (n start step : nat) : nat := (n - start + (step - 1)) / step.
(* assigning a slice of n elements to a slice of m elements: the lengths must agree, a single element is repeated *)
Definition assignable (m n : nat) : bool := Nat.eqb m n || Nat.eqb n 1.
Definition source (n j : nat) : nat := if Nat.eqb n 1 then 0 else j.
(* lines 87-100; klen is the number of elements of K, junk the contents of the new array *)
Definition pack_kernel {A} (junk K : arr A) (klen W oversample : nat) : res (arr A) :=
  forM oversample (fun t pkern =>
    let n := stride_len klen t oversample in
    if assignable (W + 2) n then
      Ok (fun i => if Nat.leb (t * (W + 2)) i && Nat.ltb i ((t + 1) * (W + 2)) then K (t + oversample * source n (i - t * (W + 2))) else pkern i)
    else Raise ValueError) junk.
(* lines 103-116 *)
Definition unpack_kernel {A} (junk K : arr A) (klen W oversample : nat) : res (arr A) :=
  forM oversample (fun t upkern =>
    let n := Nat.min ((t + 1) * (W + 2)) klen - Nat.min (t * (W + 2)) klen in
    if assignable (W + 2) n then
      Ok (fun i => if Nat.ltb i (oversample * (W + 2)) && Nat.eqb (i mod oversample) t then K (t * (W + 2) + source n (i / oversample)) else upkern i)
    else Raise ValueError) junk.

(* modulus of a complex number *)
Definition cabs (z : RC) : R := sqrt (norm2 z).
(* numpy.exp of an imaginary number *)
Definition expj (x : R) : RC := cis x.
(* lines 137-159: kr and kc are the shape of K; p runs over the pixels.  The samples of every coordinate come from uspace,
   which has oversample * (W + 2) elements. *)
Definition compute_detaper_dft (npix : nat) (K : arr2 R) (kr kc W oversample : nat) : res (arr2 R) :=
  do! ksample <- uspace W oversample;
  let rK := fun x => K (x / kc) (x mod kc) in
  let pk : arr2 RC := for_ (npix * npix) (fun p pk =>
    let ll := p mod npix in
    let mm := p / npix in
    let llN := ((INR ll - INR (npix / 2)) / INR npix)%R in
    let mmN := ((INR mm - INR (npix / 2)) / INR npix)%R in
    for_ (kr * kc) (fun x pk =>
      let xx := ksample (x mod kc) in
      let yy := ksample (x / kc) in
      upd2 pk mm ll (cadd (pk mm ll) (cmul (ofR (rK x)) (expj (-2 * PI * (llN * xx + mmN * yy))%R)))) pk) (fun _ _ => c0) in
  Ok (fun m l => cabs (pk m l)).
(* lines 162-185: the kernel has klen samples *)
Definition compute_detaper_dft_seperable (npix : nat) (K : arr R) (klen W oversample : nat) : res (arr2 R) :=
  do! ksample <- uspace W oversample;
  let pkX : arr RC := for_ npix (fun ll pkX =>
    let llN := ((INR ll - INR (npix / 2)) / INR npix)%R in
    for_ klen (fun x pkX => upd pkX ll (cadd (pkX ll) (cmul (ofR (K x)) (expj (-2 * PI * (llN * ksample x))%R)))) pkX) (fun _ => c0) in
  Ok (fun i j => cabs (cmul (pkX i) (pkX j))).
(* lines 119-134.  numpy.fft.fft2 is the definition of the two-dimensional discrete Fourier transform; fftshift moves index
   (k + n // 2) mod n to k ... as numpy.roll by n // 2, ifftshift by - (n // 2).  A kernel larger than the padded array makes the
   slice assignment fail; numpy would wrap a negative slice start, which for these sizes also fails. *)
Definition fft2 (n : nat) (x : arr2 RC) : arr2 RC := fun k1 k2 =>
  csum n (fun i => csum n (fun j => cmul (x i j) (cis (-2 * PI * (INR (k1 * i) + INR (k2 * j)) / INR n)%R))).
(* numpy.roll: element i comes from (i - s) mod n *)
Definition roll2 (n : nat) (s : Z) (x : arr2 RC) : arr2 RC := fun i j =>
  x (Z.to_nat ((Z.of_nat i - s) mod Z.of_nat n)) (Z.to_nat ((Z.of_nat j - s) mod Z.of_nat n)).
Definition fftshift2 (n : nat) (x : arr2 RC) : arr2 RC := roll2 n (Z.of_nat (n / 2)) x.
Definition ifftshift2 (n : nat) (x : arr2 RC) : arr2 RC := roll2 n (- Z.of_nat (n / 2)) x.
Definition compute_detaper (npix : nat) (K : arr2 R) (kr kc oversample : nat) : res (arr2 R) :=
  let n := npix * oversample in
  if Nat.ltb (n / 2) (kr / 2) || Nat.ltb n (n / 2 - kr / 2 + kr) || Nat.ltb (n / 2) (kc / 2) || Nat.ltb n (n / 2 - kc / 2 + kc)
  then Raise ValueError else
  let pk : arr2 RC := fun i j =>
    if Nat.leb (n / 2 - kr / 2) i && Nat.ltb i (n / 2 - kr / 2 + kr) && Nat.leb (n / 2 - kc / 2) j && Nat.ltb j (n / 2 - kc / 2 + kc)
    then ofR (K (i - (n / 2 - kr / 2)) (j - (n / 2 - kc / 2))) else c0 in
  let fpk := fftshift2 n (fft2 n (ifftshift2 n pk)) in
  Ok (fun m l => cabs (fpk (n / 2 - npix / 2 + m) (n / 2 - npix / 2 + l))).
