(* Model of /repo/africanus/testing/beam_factory.py: the generator of beam files.  Numbers are exact. *)
From Coq Require Import Reals String ZArith.
From Verif Require Import Prelude AxesModel.
Open Scope nat_scope.
Open Scope list_scope.

(* np.linspace(a, b, n, endpoint=True) *)
Definition linspace (a b : R) (n : nat) : arr R := fun i => if Nat.eqb n 1 then a else (a + INR i * ((b - a) / INR (n - 1)))%R.
(* np.all(np.diff(g) >= 0.0) *)
Fixpoint monotone (n : nat) (g : arr R) : bool :=
  match n with S (S m as k) => (if Rle_dec (g m) (g k) then true else false) && monotone k g | _ => true end.
(* a header as a list of cards *)
Definition lookup (l : list (string * card)) : header := fun k => option_map snd (find (fun p => String.eqb k (fst p)) l).
(* what the call leaves: the header and data of the files, and their names.  The same array is written to every file. *)
Record written : Type := { w_header : header; w_nfreq : nat; w_npix : nat; w_data : arr3 R; w_names : list (string * list string) }.
(* lines 81-126, 138-139; the comments and the cards that no reader uses are left out *)
Definition cards (npix : nat) (crval cdelt : R) (ngrid : nat) (g0 delta : R) (g : arr R) : list (string * card) :=
  [("SIMPLE", HInt 1); ("NAXIS", HInt 3);
   ("CTYPE1", HStr "X"); ("CUNIT1", HStr "DEG"); ("NAXIS1", HInt (Z.of_nat npix)); ("CRPIX1", HInt (1 + Z.of_nat (npix / 2))); ("CRVAL1", HReal crval); ("CDELT1", HReal cdelt);
   ("CTYPE2", HStr "Y"); ("CUNIT2", HStr "DEG"); ("NAXIS2", HInt (Z.of_nat npix)); ("CRPIX2", HInt (1 + Z.of_nat (npix / 2))); ("CRVAL2", HReal crval); ("CDELT2", HReal cdelt);
   ("CTYPE3", HStr "FREQ"); ("NAXIS3", HInt (Z.of_nat ngrid)); ("CRPIX3", HInt 1); ("CRVAL3", HReal g0); ("CDELT3", HReal delta)]%string ++
  map (fun i => (key "GFREQ" (S i), HReal (g i))) (seq 0 ngrid).
Definition extent_deg : R := 3.
Definition ngrid : nat := 33.
(* the default frequencies of lines 49-51 *)
Definition default_frequency : nat * arr R := (64, linspace 856000000 (856000000 * 2) 64).
(* beam_factory(polarisation_type, frequency, npix, dtype, schema): dtype is known or not; random: np.random.random(size=33) *)
Definition beam_factory (pol : string) (frequency : option (nat * arr R)) (npix : Z) (dtype_known : bool) (schema : string) (random : arr R) : res written :=
  if negb (Z.eqb (npix mod 2) 1) then Raise ValueError else                                      (* 45-46 *)
  let '(nf, fr) := match frequency with Some f => f | None => default_frequency end in
  if Nat.eqb nf 0 then Raise IndexError else
  let gfrequency := linspace (fr 0) (fr (nf - 1)) ngrid in                                       (* 54-55 *)
  let bandwidth := (gfrequency (ngrid - 1)%nat - fr 0%nat)%R in
  let bandwidth_delta := (bandwidth / INR ngrid - 1)%R in                                        (* 57: minus one after the division *)
  do! corr <- (if String.eqb pol "linear" then Ok [9; 10; 11; 12]%Z
               else if String.eqb pol "circular" then Ok [5; 6; 7; 8]%Z else Raise ValueError);
  if Z.ltb npix 0 then Raise ValueError else                                                     (* np.linspace refuses a negative number *)
  let n := Z.to_nat npix in
  let coords := linspace (- extent_deg / 2)%R (extent_deg / 2)%R n in
  let crval := coords (n / 2) in
  if Nat.eqb n 1 then Raise ZeroDivision else                                                    (* 71: npix - 1 is zero *)
  let cdelt := (extent_deg / INR (n - 1))%R in
  if negb dtype_known then Raise KeyError else                                                   (* BITPIX_MAP[dtype] *)
  (* 128-133 *)
  let jitter : arr R := fun i => if (Nat.eqb i 0 || Nat.eqb i (ngrid - 1))%bool then 0%R else ((random i - 1 / 2) * (1 / 10 * bandwidth_delta))%R in
  let g : arr R := fun i => (gfrequency i + jitter i)%R in
  if negb (monotone ngrid g) then Raise AssertionError else                                      (* 136 *)
  do! names <- beam_filenames schema corr;
  (* 144-148 *)
  let c i := deg2rad (coords i) in
  let beam : arr3 R := fun k i j => (cos (Rmin (65 * g k * (1 / 1000000000) * sqrt (c i ^ 2 + c j ^ 2)) (10881 / 10000)) ^ 3)%R in
  Ok {| w_header := lookup (cards n crval cdelt ngrid (gfrequency 0) bandwidth_delta g); w_nfreq := ngrid; w_npix := n; w_data := beam; w_names := names |}.
