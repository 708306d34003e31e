(* Specification vocabulary for C72 *)
From Coq Require Import Reals.
From Verif Require Import Prelude CRing CplxR NiftyModel.
Close Scope R_scope.
Open Scope nat_scope.

(* the keys a graph reads, one entry for each use *)
Definition reads (t : task) : list key := match t with TGrid _ _ _ _ None => [] | TGrid _ _ _ _ (Some l) => [l] | TSum ks => ks end.
Definition all_reads (dsk : list (key * task)) : list key := flat_map (fun p => reads (snd p)) dsk.
(* the row blocks of which a graph reads baselines, indices, visibilities and weights *)
Definition blocks (t : task) : list (nat * nat * (nat * nat) * (nat * nat)) := match t with TGrid b i v w _ => [(b, i, v, w)] | TSum _ => [] end.
Definition all_blocks (dsk : list (key * task)) : list (nat * nat * (nat * nat) * (nat * nat)) := flat_map (fun p => blocks (snd p)) dsk.

(* gridding with a grid given adds to that grid *)
Definition adds_in (gridding : nat -> nat -> nat * nat -> nat * nat -> option grid2 -> grid2) : Prop :=
  forall b i v w g x y, gridding b i v w (Some g) x y = cadd (g x y) (gridding b i v w None x y).
Definition accumulates (N : nifty) : Prop := forall b gc i n m vis g w x y,
  ms2grid_c N b gc i n m vis (Some g) w x y = cadd (g x y) (ms2grid_c N b gc i n m vis None w x y).
(* n rows in one call of the library, and the visibilities of n rows from a grid *)
Definition gridded (N : nifty) (gc : config) (wmin wmax : R) (nchan : nat) (freq : arr R) (n : nat) (uvw : arr2 R) (flags : arr2 bool) (vis : arr2 RC) (w : arr2 R) : grid2 :=
  let b := baselines N n nchan uvw freq in ms2grid_c N b gc (get_indices N b gc n nchan flags (-1) (-1) wmin wmax) n nchan vis None w.
Definition degridded (N : nifty) (gc : config) (wmin wmax : R) (nchan : nat) (freq : arr R) (n : nat) (uvw : arr2 R) (flags : arr2 bool) (grid : grid2) : arr2 RC :=
  let b := baselines N n nchan uvw freq in grid2ms_c N b gc (get_indices N b gc n nchan flags (-1) (-1) wmin wmax) grid.
(* the grid of n + m rows is the sum of the grids of the first n and of the other m; no rows give zero *)
Definition adds_rows (N : nifty) : Prop := forall gc wmin wmax nchan freq uvw flags vis w x y,
  gridded N gc wmin wmax nchan freq 0 uvw flags vis w x y = c0 /\
  forall n m, gridded N gc wmin wmax nchan freq (n + m) uvw flags vis w x y
    = cadd (gridded N gc wmin wmax nchan freq n uvw flags vis w x y)
        (gridded N gc wmin wmax nchan freq m (fun r => uvw (n + r)) (fun r => flags (n + r)) (fun r => vis (n + r)) (fun r => w (n + r)) x y).
(* degridding treats every row by itself *)
Definition row_by_row (N : nifty) : Prop := forall gc wmin wmax nchan freq uvw flags grid r0 n m r c, r0 + n <= m -> r < n -> c < nchan ->
  degridded N gc wmin wmax nchan freq n (fun r => uvw (r0 + r)) (fun r => flags (r0 + r)) grid r c = degridded N gc wmin wmax nchan freq m uvw flags grid (r0 + r) c.

(* an exact library: every cell (x, y) sums the unflagged visibilities with w between the limits, turned by the phase of the cell *)
Definition phase_of (gc : config) (uvw : arr2 R) (freq : arr R) (r c x y : nat) : R := (2 * PI * freq c * (uvw r 0%nat * INR x * csx gc + uvw r 1%nat * INR y * csy gc))%R.
Definition inside (wmin wmax w : R) : bool := if Rle_dec wmin w then if Rle_dec w wmax then true else false else false.
Definition exact : nifty :=
  {| Bl := nat * nat * arr2 R * arr R;
     Ix := arr2 bool;
     baselines := fun n m uvw freq => (n, m, uvw, freq);
     get_indices := fun b gc n m flags c0 c1 wmin wmax r c => negb (flags r c) && inside wmin wmax (snd (fst b) r 2);
     ms2grid_c := fun b gc i n m vis g w x y =>
       let s := csum n (fun r => csum m (fun c => if i r c then cmul (ofR (w r c)) (cmul (vis r c) (cis (phase_of gc (snd (fst b)) (snd b) r c x y))) else c0)) in
       match g with Some g => cadd (g x y) s | None => s end;
     grid2ms_c := fun b gc i grid r c =>
       if i r c then csum (nx gc) (fun x => csum (ny gc) (fun y => cmul (grid x y) (cis (- phase_of gc (snd (fst b)) (snd b) r c x y)))) else c0 |}.
