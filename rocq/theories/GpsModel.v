(* Model of /repo/africanus/gps/utils.py and gps/kernels.py.  Numbers are exact; a length scale of zero is outside the model. *)
From Coq Require Import Reals.
From Verif Require Import Prelude CRing CplxR.
Close Scope R_scope.
Open Scope nat_scope.

(* an input array: of shape (n, d), or of another number of dimensions, with its elements in C order *)
Inductive points : Type := P2 (n d : nat) (x : arr2 R) | Pflat (size : nat) (x : arr R).
(* x.size, and the elements in C order: np.reshape(x, (N, 1)) *)
Definition size_of (p : points) : nat := match p with P2 n d _ => n * d | Pflat n _ => n end.
Definition flat (p : points) : arr R := match p with P2 n d x => fun i => x (i / d) (i mod d) | Pflat _ x => x end.

(* utils.py lines 7-43 abs_diff: N, Np and the matrix.  Line 30 takes D from xp alone *)
Definition abs_diff (x xp : points) : res (nat * nat * arr2 R) :=
  let '(((N, Dx), xv), ((Np, D), xpv)) :=
    match x, xp with
    | P2 N Dx xv, P2 Np D xpv => (((N, Dx), xv), ((Np, D), xpv))
    | _, _ => (((size_of x, 1), fun i _ => flat x i), ((size_of xp, 1), fun i _ => flat xp i))
    end in
  (* xD[i] = x[:, i] for i below D *)
  if Nat.ltb Dx D then Raise IndexError else
  Ok (N, Np, fun i j => sqrt (csum (K := RR) D (fun k => ((xv i k - xpv j k) * (xv i k - xpv j k))%R))).

(* np.fft.fftfreq(n, d): i / (n d) for the first (n - 1) / 2 + 1 elements, (i - n) / (n d) for the others *)
Definition fftfreq (n : nat) (d : R) : arr R := fun i => ((if Nat.ltb i ((n - 1) / 2 + 1) then INR i else INR i - INR n) / (INR n * d))%R.
(* np.fft.fftshift: rolls by n / 2 *)
Definition fftshift (n : nat) (x : arr R) : arr R := fun i => x ((i + (n - n / 2)) mod n).
(* whether any of the first n elements satisfies f *)
Definition any (n : nat) (f : nat -> bool) : bool := existsb f (seq 0 n).
Definition Rneqb (a b : R) : bool := if Req_EM_T a b then false else true.

(* kernels.py lines 8-48 exponential_squared without pspec *)
Definition exponential_squared (x xp : points) (sigmaf l : R) : res (nat * nat * arr2 R) :=
  do! (N, Np, xxp) <- abs_diff x xp;
  Ok (N, Np, fun i j => (sigmaf * sigmaf * exp (- (xxp i j * xxp i j) / (2 * (l * l))))%R).
(* kernels.py lines 34-45, with pspec: the length and the spectrum.  The raise statements raise a tuple, which is a TypeError.
   xp is an array with as many elements as x. *)
Definition power_spectrum (x : points) (xp : arr R) (sigmaf l : R) : res (nat * arr R) :=
  match x with
  | Pflat _ _ => Raise ValueError
  | P2 N D xv =>
      if negb (Nat.eqb D 1) then Raise TypeError else
      if any N (fun i => Rneqb (xv i 0) (xp i)) then Raise TypeError else
      (* x = x.squeeze() has no axis when N is 1 *)
      if Nat.ltb N 2 then Raise IndexError else
      let delx := (xv 1%nat 0%nat - xv 0%nat 0%nat)%R in
      if any (N - 1) (fun i => Rneqb (xv (S i) 0%nat - xv i 0%nat)%R delx) then Raise TypeError else
      let s := fftshift N (fftfreq N delx) in
      Ok (N, fun i => (sqrt (2 * PI * l) * (sigmaf * sigmaf) * exp (- (l * l) * (s i * s i) / 2))%R)
  end.
