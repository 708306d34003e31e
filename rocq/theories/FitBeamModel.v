(* The beam of the spectral index fitter: africanus/model/spi/examples/simple_spi_fitter.py:116-202 (interpolate_beam).
   Arithmetic is over the reals; warnings and printing are left out. *)
From Coq Require Import Reals.
From Coq Require Import String Ascii.
From Verif Require Import Prelude CRing CplxR DaskPredictModel BeamModel FitterModel.
Open Scope list_scope.
Open Scope R_scope.

(* the cards of a beam image, lines 159-190 *)
Record beam_hdr := { bh_cunit1 : string; bh_cunit2 : string; bh_ctype3 : string; bh_naxis1 : nat; bh_naxis2 : nat; bh_naxis3 : nat;
  bh_crpix1 : R; bh_crpix2 : R; bh_crpix3 : R; bh_cdelt1 : R; bh_cdelt2 : R; bh_cdelt3 : R; bh_crval3 : R }.
(* a beam image: header and data[channel][row][column]; all the images have the shape that the header tells (simplification) *)
Definition beam_image : Type := (beam_hdr * arr3 R)%type.

(* Python's [sub in s] *)
Fixpoint contains (sub s : string) : bool :=
  (String.prefix sub s || match s with EmptyString => false | String _ r => contains sub r end)%bool.
Definition any_of (subs : list string) (s : string) : bool := existsb (fun t => contains t s) subs.
(* the variables assigned in the loop of lines 136-151; None: not assigned *)
Record loaded := { c1_re : option (arr3 R); c1_im : option (arr3 R); c2_re : option (arr3 R); c2_im : option (arr3 R); l_hdr : option beam_hdr }.
Definition unassigned : loaded := {| c1_re := None; c1_im := None; c2_re := None; c2_im := None; l_hdr := None |}.
(* one turn of the loop; [disk] is what astropy reads from a path *)
Definition load_one (disk : string -> beam_image) (path : string) (st : loaded) : res loaded :=
  if any_of ["xx"; "XX"; "rr"; "RR"]%string path then
    if contains "re" path then
      Ok {| c1_re := Some (snd (disk path)); c1_im := c1_im st; c2_re := c2_re st; c2_im := c2_im st;
            l_hdr := match l_hdr st with None => Some (fst (disk path)) | Some h => Some h end |}
    else if contains "im" path then
      Ok {| c1_re := c1_re st; c1_im := Some (snd (disk path)); c2_re := c2_re st; c2_im := c2_im st; l_hdr := l_hdr st |}
    else Raise NotImplementedError
  else if any_of ["yy"; "YY"; "ll"; "LL"]%string path then
    if contains "re" path then
      Ok {| c1_re := c1_re st; c1_im := c1_im st; c2_re := Some (snd (disk path)); c2_im := c2_im st; l_hdr := l_hdr st |}
    else if contains "im" path then
      Ok {| c1_re := c1_re st; c1_im := c1_im st; c2_re := c2_re st; c2_im := Some (snd (disk path)); l_hdr := l_hdr st |}
    else Raise NotImplementedError
  else Ok st.
Fixpoint load_all (disk : string -> beam_image) (paths : list string) (st : loaded) : res loaded :=
  match paths with [] => Ok st | p :: r => do! st <- load_one disk p st; load_all disk r st end.
(* lines 153: Stokes I amplitude; an unassigned variable is an UnboundLocalError *)
Definition beam_amp (st : loaded) : res (arr3 R) :=
  match c1_re st, c1_im st, c2_re st, c2_im st with
  | Some a, Some b, Some c, Some d => Ok (fun p i j => (a p i j * a p i j + b p i j * b p i j + c p i j * c p i j + d p i j * d p i j) / 2)
  | _, _, _, _ => Raise NameError
  end.
(* lines 116-202.  [name] is args.beammodel, [paths] what glob finds, in its order; (h, maskindices) stand for xx and yy at the mask.  The
   amplitude is real: the interpolation of complex cubes is used with zero imaginary parts.  squeeze is left out: with one source its
   result is broadcast to the same values. *)
Definition interpolate_beam (name : string) (paths : list string) (disk : string -> beam_image) (h : fits_hdr) (nband : nat)
    (maskindices : list (nat * nat)) (freqs : arr R) : res (arr2 R) :=
  let l_source c := axis_coord (crpix1 h) (cdelt1 h) (snd (nth c maskindices (0, 0)%nat)) in
  let m_source c := axis_coord (crpix2 h) (cdelt2 h) (fst (nth c maskindices (0, 0)%nat)) in
  let n := List.length maskindices in
  if String.eqb name "eidos" then Raise NotImplementedError else
  do! st <- load_all disk paths unassigned;
  do! amp <- beam_amp st;
  match l_hdr st with
  | None => Raise TypeError                                       (* not reached: the header comes with the first image *)
  | Some bh =>
  if negb (is_degrees (bh_cunit1 bh)) then Raise ValueError else
  let l_min := (1 - bh_crpix1 bh) * bh_cdelt1 bh in
  let l_max := (1 + INR (bh_naxis1 bh) - bh_crpix1 bh) * bh_cdelt1 bh in
  if negb (is_degrees (bh_cunit2 bh)) then Raise ValueError else
  let m_min := (1 - bh_crpix2 bh) * bh_cdelt2 bh in
  let m_max := (1 + INR (bh_naxis2 bh) - bh_crpix2 bh) * bh_cdelt2 bh in
  if Nat.eqb n 0 then Raise ValueError else                       (* min() of nothing *)
  if existsb (fun c => (if Rlt_dec (l_source c) l_min then true else false) || (if Rlt_dec (m_source c) m_min then true else false) ||
                       (if Rlt_dec l_max (l_source c) then true else false) || (if Rlt_dec m_max (m_source c) then true else false))%bool (seq 0 n)
  then Raise ValueError else
  let extents (i j : nat) := match i, j with 0, 0 => l_min | 0, _ => l_max | _, 0 => m_min | _, _ => m_max end%nat in
  if negb (String.eqb (bh_ctype3 bh) "FREQ") then Raise ValueError else
  let bfreqs p := bh_crval3 bh + axis_coord (bh_crpix3 bh) (bh_cdelt3 bh) p in
  (* np.transpose(beam_amp, (1, 2, 0)): rows, columns, channels *)
  let cube := {| b_lw := bh_naxis2 bh; b_mh := bh_naxis1 bh; b_nud := bh_naxis3 bh; b_at := fun i j p _ => ofR (amp p i j) |} in
  do! out <- beam_cube_dde cube extents (bh_naxis3 bh) bfreqs n (fun c k => if Nat.eqb k 0 then l_source c else m_source c) 1 1 (fun _ _ => 0)
    (fun _ _ _ _ => 0) (fun _ _ _ => 1) nband freqs;
  Ok (fun c b => re (out c 0%nat 0%nat b 0%nat))
  end.
