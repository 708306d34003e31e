(* Model of /repo/africanus/gridding/perleypolyhedron: policies/convolution_policies.py, gridder.py, degridder.py and dask.py.
   Numbers are exact reals and complex numbers.  The uvw array is the memory it lies in (see FacetModel); gridder and degridder
   change the caller's uvw and vis in place, so they return them.  Policies are chosen from their names while numba compiles, so
   a wrong name raises before anything is computed.  numba does not check bounds: an index outside an array, which would touch
   foreign memory, is modelled as raising IndexError. *)
From Coq Require Import String Reals.
From Verif Require Import Prelude CRing CplxR DftModel StokesGridModel FacetModel.
Close Scope R_scope.
Close Scope string_scope.
Open Scope nat_scope.

(* numpy.round: to the nearest integer, halves to the even one *)
Definition np_round (x : R) : Z :=
  let f := Int_part x in
  let d := (x - IZR f)%R in
  if Rlt_dec d (1 / 2) then f else if Rlt_dec (1 / 2) d then (f + 1)%Z else if Z.even f then f else (f + 1)%Z.
(* int: towards zero *)
Definition py_int (x : R) : Z := if Rlt_dec x 0 then (- Int_part (- x))%Z else Int_part x.
(* indexing with a negative index counted from the end *)
Definition index_of (n : nat) (i : Z) : res nat :=
  if (0 <=? i)%Z && (i <? Z.of_nat n)%Z then Ok (Z.to_nat i)
  else if (- Z.of_nat n <=? i)%Z && (i <? 0)%Z then Ok (Z.to_nat (i + Z.of_nat n))
  else Raise IndexError.
Definition getitem {A} (n : nat) (a : arr A) (i : Z) : res A := do! j <- index_of n i; Ok (a j).
Definition inside (npix : nat) (i : Z) : bool := (0 <=? i)%Z && (i <? Z.of_nat npix)%Z.

(* a convolution kernel: its samples, their number, the number of taps and the oversampling *)
Record kernel : Type := { samples : arr R; nsamples : nat; width : nat; oversampling : nat }.
(* convolution_policies.py lines 30-35 and the same lines of the other policies: nearest cell and fraction of one axis *)
Definition discrete (npix : nat) (s : R) : Z := np_round (s + INR (npix / 2)).
Definition fraction (npix : nat) (s : R) (os : nat) : Z := py_int ((- (s + INR (npix / 2)) + IZR (discrete npix s)) * INR os).
(* lines 38-39: index of tap t in the unpacked kernel *)
Definition unpacked_index (k : kernel) (frac : Z) (t : nat) : Z := ((Z.of_nat t + 1) * Z.of_nat (oversampling k) + frac)%Z.
(* lines 82-83, 97-98: in the packed kernel *)
Definition packed_index (k : kernel) (frac : Z) (t : nat) : Z :=
  (Z.of_nat t + (if frac <? 0 then 0 else 1) + frac * (Z.of_nat (width k) + 2))%Z.
(* lines 6-54 and 56-112, which differ in the index only; vis is the view vis[r, c, :], to_stokes the chosen conversion.
   Returns the grid and the weight. *)
Definition convolve_scatter (index : kernel -> Z -> nat -> Z) (scaled_u scaled_v : R) (npix : nat) (grid : arr2 RC) (vis : arr RC)
    (to_stokes : arr RC -> RC) (k : kernel) : res (arr2 RC * R) :=
  let disc_u := discrete npix scaled_u in
  let disc_v := discrete npix scaled_v in
  let frac_u := fraction npix scaled_u (oversampling k) in
  let frac_v := fraction npix scaled_v (oversampling k) in
  forM (width k) (fun tv gc =>
    do! conv_v <- getitem (nsamples k) (samples k) (index k frac_v tv);
    let grid_v_lookup := (disc_v + Z.of_nat tv - Z.of_nat (width k / 2))%Z in
    forM (width k) (fun tu gc =>
      do! conv_u <- getitem (nsamples k) (samples k) (index k frac_u tu);
      let grid_u_lookup := (disc_u + Z.of_nat tu - Z.of_nat (width k / 2))%Z in
      let grid := fst gc in
      let grid := if inside npix grid_v_lookup && inside npix grid_u_lookup
        then upd2 grid (Z.to_nat grid_v_lookup) (Z.to_nat grid_u_lookup)
               (cadd (grid (Z.to_nat grid_v_lookup) (Z.to_nat grid_u_lookup)) (cmul (ofR (conv_v * conv_u)%R) (to_stokes vis)))
        else grid in
      Ok (grid, (snd gc + conv_v * conv_u)%R)) gc) (grid, 0%R).
(* lines 115-145 *)
Definition convolve_nn_scatter (scaled_u scaled_v : R) (npix : nat) (grid : arr2 RC) (vis : arr RC) (to_stokes : arr RC -> RC) : res (arr2 RC * R) :=
  do! v <- index_of npix (discrete npix scaled_v);
  do! u <- index_of npix (discrete npix scaled_u);
  Ok (upd2 grid v u (cadd (grid v u) (to_stokes vis)), 1%R).
(* lines 148-208 and 211-257; to_corr adds a Stokes value to the correlations of the view *)
Definition convolve_gather (index : kernel -> Z -> nat -> Z) (scaled_u scaled_v : R) (npix : nat) (grid : arr2 RC) (vis : arr RC)
    (to_corr : RC -> arr RC -> arr RC) (k : kernel) : res (arr RC) :=
  let disc_u := discrete npix scaled_u in
  let disc_v := discrete npix scaled_v in
  let frac_u := fraction npix scaled_u (oversampling k) in
  let frac_v := fraction npix scaled_v (oversampling k) in
  do! (vis, cw) <- forM (width k) (fun tv vc =>
    do! conv_v <- getitem (nsamples k) (samples k) (index k frac_v tv);
    let grid_v_lookup := (disc_v + Z.of_nat tv - Z.of_nat (width k / 2))%Z in
    forM (width k) (fun tu vc =>
      do! conv_u <- getitem (nsamples k) (samples k) (index k frac_u tu);
      let grid_u_lookup := (disc_u + Z.of_nat tu - Z.of_nat (width k / 2))%Z in
      Ok (if inside npix grid_v_lookup && inside npix grid_u_lookup
          then (to_corr (cmul (cmul (grid (Z.to_nat grid_v_lookup) (Z.to_nat grid_u_lookup)) (ofR conv_v)) (ofR conv_u)) (fst vc),
                (snd vc + conv_v * conv_u)%R)
          else vc)) vc) (vis, 0%R);
  Ok (fun i => cmul (vis i) (ofR (/ (cw + 1 / 100000000))%R)).
(* lines 267-288, for the gridder.  The gather policies need the other kind of Stokes conversion and return nothing to add to
   the weight, so that compiling the gridder with them fails. *)
Definition scatter_policy (policy : string) : res (R -> R -> nat -> arr2 RC -> arr RC -> (arr RC -> RC) -> kernel -> res (arr2 RC * R)) :=
  if (policy =? "conv_1d_axisymmetric_packed_scatter")%string then Ok (convolve_scatter packed_index)
  else if (policy =? "conv_nn_scatter")%string then Ok (fun u v n g x f _ => convolve_nn_scatter u v n g x f)
  else if (policy =? "conv_1d_axisymmetric_unpacked_scatter")%string then Ok (convolve_scatter unpacked_index)
  else if (policy =? "conv_1d_axisymmetric_packed_gather")%string || (policy =? "conv_1d_axisymmetric_unpacked_gather")%string then Raise TypeError
  else Raise ValueError.
(* the same for the degridder.  The scatter policies call corr2stokes with a name only stokes2corr knows. *)
Definition gather_policy (policy : string) : res (R -> R -> nat -> arr2 RC -> arr RC -> (RC -> arr RC -> arr RC) -> kernel -> res (arr RC)) :=
  if (policy =? "conv_1d_axisymmetric_packed_gather")%string then Ok (convolve_gather packed_index)
  else if (policy =? "conv_1d_axisymmetric_unpacked_gather")%string then Ok (convolve_gather unpacked_index)
  else Raise ValueError.

(* the arguments describing the image and the policies *)
Record setup : Type := {
  cell : R; image_centre : R * R; phase_centre : R * R; kern : kernel;
  baseline : string; phase : option string; stokes_conversion : string; convolution : string
}.
(* gridder.py line 82, degridder.py lines 137, 236 *)
Definition scale_factor (npix : nat) (cell : R) : R := (INR npix * cell / 3600 * PI / 180)%R.
(* numpy.max(chanmap) + 1; an empty array raises *)
Definition bands (nchan : nat) (chanmap : arr nat) : res nat :=
  match nchan with O => Raise ValueError | _ => Ok (for_ nchan (fun c m => Nat.max m (chanmap c)) 0 + 1) end.

Record gstate : Type := { s_uvw : arr R; s_vis : arr3 RC; s_stack : arr3 RC; s_wt : arr R }.
(* gridder.py lines 84-112: one row *)
Definition grid_row (npix nchan : nat) (a : setup) (wavelengths : arr R) (chanmap : arr nat) (rotate_phase : nat -> arr2 RC -> arr R -> nat -> arr R -> R -> R -> R -> R -> R -> arr2 RC)
    (rotate_uvw : arr R -> nat -> R -> R -> R -> R -> arr R)
    (scatter : R -> R -> nat -> arr2 RC -> arr RC -> (arr RC -> RC) -> kernel -> res (arr2 RC * R)) (to_stokes : arr RC -> RC)
    (r : nat) (s : gstate) : res gstate :=
  let '(ra0, dec0) := phase_centre a in
  let '(ra, dec) := image_centre a in
  let row := rotate_phase nchan (s_vis s r) (s_uvw s) r wavelengths ra0 dec0 ra dec 1%R in
  let vis : arr3 RC := fun r' => if Nat.eqb r' r then row else s_vis s r' in
  let uvw := rotate_uvw (s_uvw s) r ra0 dec0 ra dec in
  forM nchan (fun c s =>
    let scaled_u := (s_uvw s (comp r 0) * scale_factor npix (cell a) / wavelengths c)%R in
    let scaled_v := (s_uvw s (comp r 1) * scale_factor npix (cell a) / wavelengths c)%R in
    do! (grid, cw) <- scatter scaled_u scaled_v npix (s_stack s (chanmap c)) (s_vis s r c) to_stokes (kern a);
    Ok {| s_uvw := s_uvw s; s_vis := s_vis s;
          s_stack := fun b => if Nat.eqb b (chanmap c) then grid else s_stack s b;
          s_wt := upd (s_wt s) (chanmap c) (s_wt s (chanmap c) + cw)%R |})
    {| s_uvw := uvw; s_vis := vis; s_stack := s_stack s; s_wt := s_wt s |}.
(* gridder.py lines 59-116.  Shapes: uvw (nuvw, uvwcols), vis (nrow, nvischan, ncorr), wavelengths (nchan), chanmap (nchanmap).
   Returns the stack of grids, and uvw and vis as left behind. *)
Definition gridder (nuvw uvwcols : nat) (uvw : arr R) (nrow nvischan ncorr : nat) (vis : arr3 RC) (nchan : nat) (wavelengths : arr R)
    (nchanmap : nat) (chanmap : arr nat) (npix : nat) (a : setup) (do_normalize : bool) : res (arr3 RC * (arr R * arr3 RC)) :=
  do! rotate_phase <- phase_policy (phase a);
  do! rotate_uvw <- baseline_policy (baseline a);
  do! to_stokes <- corr2stokes (stokes_conversion a) ncorr;
  do! scatter <- scatter_policy (convolution a);
  if negb (Nat.eqb nchanmap nchan) then Raise ValueError else
  do! nband <- bands nchan chanmap;
  if negb (Nat.eqb uvwcols 3) then Raise ValueError else
  if negb (Nat.eqb nuvw nrow) then Raise ValueError else
  if negb (Nat.eqb nvischan nchan) then Raise ValueError else
  do! s <- forM nrow (grid_row npix nchan a wavelengths chanmap rotate_phase rotate_uvw scatter to_stokes)
             {| s_uvw := uvw; s_vis := vis; s_stack := fun _ _ _ => c0; s_wt := fun _ => 0%R |};
  let stack := if do_normalize
    then for_ nband (fun c (st : arr3 RC) => fun b y x => if Nat.eqb b c then cmul (st b y x) (ofR (/ (s_wt s c + 1 / 100000000))%R) else st b y x) (s_stack s)
    else s_stack s in
  Ok (stack, (s_uvw s, s_vis s)).

(* degridder.py lines 16-70: one row; the state is the uvw array and the visibilities *)
Definition degrid_row (npix nchan : nat) (a : setup) (wavelengths : arr R) (chanmap : arr nat) (gridstack : arr3 RC)
    (rotate_phase : nat -> arr2 RC -> arr R -> nat -> arr R -> R -> R -> R -> R -> R -> arr2 RC)
    (rotate_uvw : arr R -> nat -> R -> R -> R -> R -> arr R)
    (gather : R -> R -> nat -> arr2 RC -> arr RC -> (RC -> arr RC -> arr RC) -> kernel -> res (arr RC)) (to_corr : RC -> arr RC -> arr RC)
    (r : nat) (s : arr R * arr3 RC) : res (arr R * arr3 RC) :=
  let '(ra0, dec0) := phase_centre a in
  let '(ra, dec) := image_centre a in
  let uvw := rotate_uvw (fst s) r ra dec ra0 dec0 in
  do! row <- forM nchan (fun c (row : arr2 RC) =>
    let scaled_u := (uvw (comp r 0) * scale_factor npix (cell a) / wavelengths c)%R in
    let scaled_v := (uvw (comp r 1) * scale_factor npix (cell a) / wavelengths c)%R in
    do! v <- gather scaled_u scaled_v npix (gridstack (chanmap c)) (row c) to_corr (kern a);
    Ok (fun c' => if Nat.eqb c' c then v else row c')) (snd s r);
  let row := rotate_phase nchan row uvw r wavelengths ra0 dec0 ra dec (-1)%R in
  Ok (uvw, fun r' => if Nat.eqb r' r then row else snd s r').
(* rows in a given order *)
Definition rows_in_order {S} (order : list nat) (body : nat -> S -> res S) (s : S) : res S :=
  fold_left (fun acc r => do! s <- acc; body r s) order (Ok s).
(* degridder.py lines 72-168 (prange: the rows in some order) and 170-267 (range: in this order).  gridstack has shape
   (gband, gy, gx). *)
Definition degridder_ordered (order : list nat) (uvwcols : nat) (uvw : arr R) (gband gy gx : nat) (gridstack : arr3 RC)
    (nchan : nat) (wavelengths : arr R) (nchanmap : nat) (chanmap : arr nat) (a : setup) : res (arr3 RC * arr R) :=
  do! rotate_phase <- phase_policy (phase a);
  do! rotate_uvw <- baseline_policy (baseline a);
  do! ncorr <- ncorr_out (stokes_conversion a);
  do! to_corr <- stokes2corr_impl (stokes_conversion a);
  do! gather <- gather_policy (convolution a);
  if negb (Nat.eqb nchanmap nchan) then Raise ValueError else
  do! nband <- bands nchan chanmap;
  if negb (Nat.eqb gy gx) then Raise ValueError else
  if Nat.ltb gband nband then Raise ValueError else
  if negb (Nat.eqb uvwcols 3) then Raise ValueError else
  do! s <- rows_in_order order (degrid_row gy nchan a wavelengths chanmap gridstack rotate_phase rotate_uvw gather to_corr) (uvw, fun _ _ _ => c0);
  Ok (snd s, fst s).
Definition degridder_serial (nrow : nat) := degridder_ordered (seq 0 nrow).

(* dask.py lines 179-221: the facets of one block of rows, one after another on the same uvw and vis *)
Fixpoint grid_facets (nrow nchan ncorr : nat) (uvw : arr R) (vis : arr3 RC) (wavelengths : arr R) (chanmap : arr nat) (npix : nat)
    (a : setup) (do_normalize : bool) (centres : list (R * R)) : res (list (arr3 RC)) :=
  match centres with
  | [] => Ok []
  | f :: rest =>
      let a' := {| cell := cell a; image_centre := f; phase_centre := phase_centre a; kern := kern a; baseline := baseline a;
                   phase := phase a; stokes_conversion := stokes_conversion a; convolution := convolution a |} in
      do! (g, (uvw, vis)) <- gridder nrow 3 uvw nrow nchan ncorr vis nchan wavelengths nchan chanmap npix a' do_normalize;
      do! gs <- grid_facets nrow nchan ncorr uvw vis wavelengths chanmap npix a do_normalize rest;
      Ok (g :: gs)
  end.
(* dask.py lines 281-323: the blocks of rows, starting at row r0.  Every block has its own copy of uvw and vis. *)
Fixpoint grid_blocks (nchan ncorr : nat) (uvw : arr R) (vis : arr3 RC) (wavelengths : arr R) (chanmap : arr nat) (npix : nat)
    (a : setup) (do_normalize : bool) (centres : list (R * R)) (r0 : nat) (rows : list nat) : res (list (list (arr3 RC))) :=
  match rows with
  | [] => Ok []
  | n :: rows =>
      do! g <- grid_facets n nchan ncorr (fun i => uvw (3 * r0 + i)) (fun r => vis (r0 + r)) wavelengths chanmap npix a do_normalize centres;
      do! gs <- grid_blocks nchan ncorr uvw vis wavelengths chanmap npix a do_normalize centres (r0 + n) rows;
      Ok (g :: gs)
  end.
(* dask.py lines 268-327: of the channel chunks only the first is used.  The blocks are averaged, in whatever tree.  The image
   centres are in one chunk. *)
Definition dask_gridder (rows chans : list nat) (ncorr : nat) (uvw : arr R) (vis : arr3 RC) (wavelengths : arr R) (chanmap : arr nat) (npix : nat)
    (a : setup) (do_normalize : bool) (centres : list (R * R)) : res (nat -> arr3 RC) :=
  match chans with
  | [] => Raise IndexError
  | nchan :: _ =>
      do! blocks <- grid_blocks nchan ncorr uvw vis wavelengths chanmap npix a do_normalize centres 0 rows;
      Ok (fun f b y x => cmul (fold_right (fun g acc => cadd (nth f g (fun _ _ _ => c0) b y x) acc) c0 blocks) (ofR (/ INR (List.length rows))%R))
  end.
(* dask.py lines 21-80, 138-176: blocks of rows and channels, facets summed.  The centre passed to the degridder is the whole
   array of centres, which is only meaningful when no policy looks at it; with other policies the call fails or computes with
   arrays, modelled as raising TypeError.  Of the facet chunks only the first is used, nfacet is its size. *)
Definition dask_degridder (facets rows chans : list nat) (uvw : arr R) (gband gy gx : nat) (gridstack : nat -> arr3 RC)
    (wavelengths : arr R) (chanmap : arr nat) (a : setup) (r c k : nat) : res RC :=
  match facets with
  | [] => Raise IndexError
  | nfacet :: _ =>
      let '(r0, nr) := locate 0 rows r in
      let '(c0', nc) := locate 0 chans c in
      if negb ((baseline a =? "None")%string && match phase a with None => true | Some p => (p =? "None")%string end) then Raise TypeError else
      forM nfacet (fun f acc =>
        do! (v, _) <- degridder_serial nr 3 (fun i => uvw (3 * r0 + i)) gband gy gx (gridstack f) nc (fun c => wavelengths (c0' + c)) nc
                        (fun c => chanmap (c0' + c)) a;
        Ok (cadd acc (v (r - r0) (c - c0') k))) c0
  end.
