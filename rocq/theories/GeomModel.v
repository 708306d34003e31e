(* Model of /repo/africanus/linalg/geometry.py *)
From Coq Require Import QArith QArith.Qcanon.
From Verif Require Import Prelude NumpyModel AvgModel QcArith.
Close Scope Qc_scope. Close Scope Q_scope.
Open Scope Z_scope.

(* pixels are (y, x), as in the sparse masks *)
Definition px : Type := (Z * Z)%type.

(* np.arange(lo, hi + 1) *)
Definition zrange (lo hi : Z) : list Z := map (fun k => lo + Z.of_nat k) (seq 0 (Z.to_nat (hi - lo + 1))).
(* geometry.py:85-87 and 506-508: zip of the ravelled np.meshgrid(y, x) *)
Definition mesh (xl xu yl yu : Z) : list px :=
  flat_map (fun x => map (fun y => (y, x)) (zrange yl yu)) (zrange xl xu).

(* geometry.py:478-495 BoundingBox.  The object is represented by the extremes of its corners
   (all that the modelled methods read of them), box_npx, the mask and its weights.
   Weights and image values are exact rationals. *)
Record box : Type := { bxl : Z; bxu : Z; byl : Z; byu : Z; bnx : Z; bny : Z;
                       bmask : list px; bwts : list Qc }.

Definition in_ext (xl xu yl yu : Z) (p : px) : bool :=
  Z.leb xl (snd p) && Z.leb (snd p) xu && Z.leb yl (fst p) && Z.leb (fst p) yu.

(* geometry.py:479-495 with init_mask 497-516 (mask = None) and the sparse_mask setter 538-573.
   scipy's ConvexHull raises QhullError, a RuntimeError, on a flat set of points. *)
Definition mk_box (xl xu yl yu : Z) (mask : option (list px)) : res box :=
  if Z.eqb xl xu || Z.eqb yl yu then Raise RuntimeError
  else
    let x0 := Z.min xl xu in let x1 := Z.max xl xu in
    let y0 := Z.min yl yu in let y1 := Z.max yl yu in
    let m := match mask with None => mesh x0 x1 y0 y1 | Some m => filter (in_ext x0 x1 y0 y1) m end in
    Ok {| bxl := x0; bxu := x1; byl := y0; byu := y1;
          bnx := Z.abs (xu - xl + 1); bny := Z.abs (yu - yl + 1);
          bmask := m; bwts := map (fun _ => 1%Qc) m |}.

(* geometry.py:518-525 BoundingBox.__contains__, on (x, y) *)
Definition box_contains (b : box) (x y : Z) : bool :=
  Z.leb (bxl b) x && Z.leb x (bxu b) && Z.leb (byl b) y && Z.leb y (byu b).

(* geometry.py:444-454 centre of a box: the mean of its four vertices, truncated towards zero *)
Definition box_centre (b : box) : Z * Z := (Z.quot (bxl b + bxu b) 2, Z.quot (byl b + byu b) 2).

(* ---------- factories ---------- *)
(* geometry.py:655-698 AxisAlignedBoundingBox.  The argument is described by the extremes of its
   corners, its centre and its mask. *)
Definition axis_aligned (xl xu yl yu cx cy : Z) (mask : list px) (square enforce_odd : bool) : res box :=
  let '(xl', xu', yl', yu') :=
    if square then
      let nx := xu - xl + 1 in
      let ny := yu - yl + 1 in
      let boxdiam := Z.max nx ny in
      let boxrad := boxdiam / 2 in
      (cx - boxrad, cx + boxdiam - boxrad - 1, cy - boxrad, cy + boxdiam - boxrad - 1)
    else (xl, xu, yl, yu) in
  let xu'' := xu' + (if enforce_odd then (xu' - xl') mod 2 else 0) in
  let yu'' := yu' + (if enforce_odd then (yu' - yl') mod 2 else 0) in
  mk_box xl' xu'' yl' yu'' (Some mask).

(* int(np.ceil(w / float(n))), exactly *)
Definition zceil (w n : Z) : Z := - ((- w) / n).

(* geometry.py:700-763 SplitBox *)
Fixpoint mapM {A B} (f : A -> res B) (l : list A) : res (list B) :=
  match l with
  | [] => Ok []
  | a :: l' => do! b <- f a; do! bs <- mapM f l'; Ok (b :: bs)
  end.
Definition split_lo (lo s : Z) (i : nat) : Z := lo + Z.of_nat i * s.
Definition split_hi (lo hi s : Z) (n i : nat) : Z :=
  if Nat.eqb (S i) n then Z.max hi (Z.min (lo + Z.of_nat (S i) * s - 1) hi)
  else lo + Z.of_nat (S i) * s - 1.
Definition split_box (b : box) (n : nat) : res (list box) :=
  if Nat.ltb n 1 then Raise ValueError
  else
    let sx := zceil (bxu b - bxl b + 1) (Z.of_nat n) in
    let sy := zceil (byu b - byl b + 1) (Z.of_nat n) in
    mapM (fun k => let iy := (k / n)%nat in let ix := (k mod n)%nat in
            mk_box (split_lo (bxl b) sx ix) (split_hi (bxl b) (bxu b) sx n ix)
                   (split_lo (byl b) sy iy) (split_hi (byl b) (byu b) sy n iy) (Some (bmask b)))
         (seq 0 (n * n)).

(* geometry.py:765-793 PadBox *)
Definition pad_box (b : box) (dnx dny : Z) : res box :=
  if Z.ltb (dnx - bnx b) 0 || Z.ltb (dny - bny b) 0 then Raise ValueError
  else
    let pad_left := dnx / 2 in let pad_right := dnx - pad_left - 1 in
    let pad_bottom := dny / 2 in let pad_top := dny - pad_bottom - 1 in
    let '(cx, cy) := box_centre b in
    mk_box (cx - pad_left) (cx + pad_right) (cy - pad_bottom) (cy + pad_top) (Some (bmask b)).

(* ---------- normalize_masks ---------- *)
(* a region: r_is_list tells whether sparse_mask is a Python list (hulls) or an ndarray (boxes) *)
Record region : Type := { r_is_list : bool; r_mask : list px; r_wts : list Qc }.

Definition px_eqb (p q : px) : bool := Z.eqb (fst p) (fst q) && Z.eqb (snd p) (snd q).
(* px in sparse_mask: exact for lists; for an ndarray, true when any single coordinate agrees *)
Definition px_in (lst : bool) (p : px) (m : list px) : bool :=
  if lst then existsb (px_eqb p) m
  else existsb (fun q => Z.eqb (fst q) (fst p) || Z.eqb (snd q) (snd p)) m.
(* _mask_weights[sel] = v: first index for a list, every matching position for an ndarray *)
Fixpoint set_weight (lst : bool) (p : px) (v : Qc) (m : list px) (w : list Qc) : list Qc :=
  match m, w with
  | q :: m', x :: w' =>
      if px_eqb q p then v :: (if lst then w' else set_weight lst p v m' w')
      else x :: set_weight lst p v m' w'
  | _, _ => w
  end.

Definition list_max (d : Z) (l : list Z) : Z := fold_left Z.max l d.

(* geometry.py:274-335.  np.max of no pixels at all: indexing an empty one-dimensional array
   raises IndexError. *)
Definition normalize_masks (regions : list region) (only_overlapped : bool) : res (list region) :=
  let all := flat_map r_mask regions in
  match all with
  | [] => Raise IndexError
  | p0 :: _ =>
      let nx := list_max (snd p0) (map snd all) + 1 in
      let flat := map (fun p : px => fst p * nx + snd p) all in
      let '(ufl, _, _, cnt) := unique_internal Z.ltb zneqb (length flat) (of_list 0 flat) in
      let pairs := filter (fun fc : Z * nat => if only_overlapped then Nat.ltb 1 (snd fc) else true) (combine ufl cnt) in
      let upx := map (fun fc : Z * nat => ((1 / Qc_of_nat (snd fc))%Qc, (fst fc / nx, fst fc mod nx))) pairs in
      Ok (map (fun reg =>
            {| r_is_list := r_is_list reg; r_mask := r_mask reg;
               r_wts := fold_left (fun w (vp : Qc * px) => set_weight (r_is_list reg) (snd vp) (fst vp) (r_mask reg) w)
                          (filter (fun vp : Qc * px => px_in (r_is_list reg) (snd vp) (r_mask reg)) upx)
                          (r_wts reg) |}) regions)
  end.

(* ---------- masks, extraction and projection ---------- *)
(* geometry.py:135-166 mask: the weights on the rectangle of the region, rows y - miny and
   columns x - minx *)
Definition fill_mask (b : box) (iy ix : Z) : Qc :=
  let nx := bxu b - bxl b + 1 in
  fold_left (fun (f : Z -> Qc) (pw : px * Qc) =>
               if in_ext (bxl b) (bxu b) (byl b) (byu b) (fst pw)
               then fun k => if Z.eqb k ((fst (fst pw) - byl b) * nx + (snd (fst pw) - bxl b)) then snd pw else f k
               else f)
            (combine (bmask b) (bwts b)) (fun _ => 0%Qc) (iy * nx + ix).

(* one plane of a data cube; the other axes of the cubes are handled pointwise *)
Record plane : Type := { p_ny : Z; p_nx : Z; p_at : Z -> Z -> Qc }.

(* Python slice(start, stop) on an axis of the given length: first index and count *)
Definition slice_norm (len i : Z) : Z := if Z.ltb i 0 then Z.max 0 (i + len) else Z.min i len.
Definition pyslice (len start stop : Z) : Z * Z :=
  let s := slice_norm len start in (s, Z.max 0 (slice_norm len stop - s)).

(* geometry.py:168-272 regional_data, for axes (y, x).  The result is the window and its extents. *)
Definition regional_data (b : box) (d : plane) (oob : Qc) : res (plane * (Z * Z * Z * Z)) :=
  let minx := bxl b in let maxx := bxu b in let miny := byl b in let maxy := byu b in
  let pad_left := Z.max 0 (0 - minx) in
  let pad_bottom := Z.max 0 (0 - miny) in
  let pad_right := Z.max 0 (maxx - p_nx d + 1) in
  let pad_top := Z.max 0 (maxy - p_ny d + 1) in
  if Z.ltb (p_ny d) minx || Z.ltb (p_nx d) miny || Z.ltb maxy 0 || Z.ltb maxx 0 then Raise ValueError
  else
    let '(sy, cy) := pyslice (p_ny d) (miny + pad_bottom) (maxy - pad_top + 1) in
    let '(sx, cx) := pyslice (p_nx d) (minx + pad_left) (maxx - pad_right + 1) in
    let ny := maxy - miny + 1 in let nx := maxx - minx + 1 in
    let '(ty, ky) := pyslice ny pad_bottom (- miny + maxy + 1 - pad_top) in
    let '(tx, kx) := pyslice nx pad_left (- minx + maxx + 1 - pad_right) in
    do! data <-
      (if Z.ltb 0 pad_left || Z.ltb 0 pad_bottom || Z.ltb 0 pad_right || Z.ltb 0 pad_top then
         if (Z.eqb cy ky || Z.eqb cy 1) && (Z.eqb cx kx || Z.eqb cx 1) then
           Ok (fun y x => if Z.leb ty y && Z.ltb y (ty + ky) && Z.leb tx x && Z.ltb x (tx + kx)
                          then p_at d (sy + (if Z.eqb cy 1 then 0 else y - ty)) (sx + (if Z.eqb cx 1 then 0 else x - tx))
                          else (0 * oob)%Qc)
         else Raise ValueError
       else Ok (fun y x => p_at d (sy + y) (sx + x)));
    let m := fun y x => let w := fill_mask b y x in if Qc_eq_bool w 0%Qc then oob else w in
    Ok ({| p_ny := ny; p_nx := nx; p_at := fun y x => (data y x * m y x)%Qc |}, (minx, maxx, miny, maxy)).

(* geometry.py:575-646 project_regions; an empty list returns an empty array (None).  NaNs, which
   are replaced by zero, do not occur here.  The lists have equal length. *)
Definition zmin_list (d : Z) (l : list Z) : Z := fold_left Z.min l d.
Definition project_regions (items : list (plane * box)) : res (option (plane * box)) :=
  match items with
  | [] => Ok None
  | (_, b0) :: _ =>
      let bs := map snd items in
      let minx := zmin_list (bxl b0) (map bxl bs) in let maxx := list_max (bxu b0) (map bxu bs) in
      let miny := zmin_list (byl b0) (map byl bs) in let maxy := list_max (byu b0) (map byu bs) in
      let npxx := maxx - minx + 1 in let npxy := maxy - miny + 1 in
      do! img <-
        fold_left (fun (acc : res (Z -> Z -> Qc)) (fb : plane * box) =>
          do! img <- acc;
          let f := fst fb in let r := snd fb in
          let xl := Z.max 0 (- minx + bxl r) in
          let xu := Z.min (- minx + bxu r + 1) npxx in
          let yl := Z.max 0 (- miny + byl r) in
          let yu := Z.min (- miny + byu r + 1) npxy in
          let fnx := xu - xl + 1 in let fny := yu - yl + 1 in
          if negb (Z.eqb (p_ny f) (fny - 1)) || negb (Z.eqb (p_nx f) (fnx - 1)) then Raise ValueError
          else Ok (fun y x => if Z.leb yl y && Z.ltb y yu && Z.leb xl x && Z.ltb x xu
                              then (img y x + p_at f (y - yl) (x - xl))%Qc else img y x))
          items (Ok (fun _ _ => 0%Qc));
      do! bb <- mk_box minx maxx miny maxy (Some (flat_map bmask bs));
      Ok (Some ({| p_ny := npxy; p_nx := npxx; p_at := img |}, bb))
  end.

(* ---------- convex hulls ---------- *)
(* A hull is the list of its corners (x, y), clockwise, as scipy's ConvexHull delivers them *)
Definition pt : Type := (Z * Z)%type.
Definition next_corner (c : list pt) (i : nat) : pt := nth ((i + 1) mod length c) c (0, 0).
(* geometry.py:371-382 normals *)
Definition normals (left : bool) (c : list pt) : list pt :=
  map (fun i => let e := (fst (next_corner c i) - fst (nth i c (0, 0)), snd (next_corner c i) - snd (nth i c (0, 0))) in
                if left then (- snd e, fst e) else (snd e, - fst e)) (seq 0 (length c)).
Definition dotz (a b : pt) : Z := fst a * fst b + snd a * snd b.
(* geometry.py:456-475 __contains__: dot > -0.5 *)
Definition hull_contains (c : list pt) (s : pt) : bool :=
  forallb (fun nc : pt * pt => Z.ltb (-1) (2 * dotz (fst nc) (fst s - fst (snd nc), snd s - snd (snd nc))))
          (combine (normals false c) c).

(* geometry.py:411-442 overlaps_with, min_sep_dist = 0.5: every normal is divided by the length
   of normal number 2, so gap > 0.5 reads 2 gap > |n_2|, decided on the squares *)
Definition proj_min (c : list pt) (n : pt) : Z := zmin_list (dotz (hd (0, 0) c) n) (map (fun v => dotz v n) c).
Definition proj_max (c : list pt) (n : pt) : Z := list_max (dotz (hd (0, 0) c) n) (map (fun v => dotz v n) c).
Definition far (gap norm2 : Z) : bool := Z.ltb 0 gap && Z.ltb norm2 (4 * gap * gap).
Definition overlaps_with (c1 c2 : list pt) : bool :=
  let ns := normals true c1 ++ normals true c2 in
  let n2 := nth 2 ns (0, 0) in
  let norm2 := dotz n2 n2 in
  forallb (fun n => negb (far (proj_min c2 n - proj_max c1 n) norm2 || far (proj_min c1 n - proj_max c2 n) norm2)) ns.

(* ---------- the cached filled mask ---------- *)
(* geometry.py:66-69 invalidate_cached_masks, 85-99 init_mask (full), 107-133 and 538-573 the
   setter, 135-166 the mask property: the filled mask is cached on the first read; the setter does
   not clear the cache, normalize_masks (320-335, which writes the weights: OWeights) does.  V stands
   for a sparse mask with its weights, and for the filled mask made from it. *)
Section Cache.
  Context {V : Type}.
  Record mask_state : Type := { ms_cur : V; ms_cache : option V }.
  Inductive mask_op : Type := OSet (v : V) | ORead | OInvalidate | OWeights (v : V).
  Definition mask_read (s : mask_state) : V := match ms_cache s with Some v => v | None => ms_cur s end.
  Definition mask_step (full : V) (s : mask_state) (o : mask_op) : mask_state :=
    match o with
    | OSet v => {| ms_cur := v; ms_cache := ms_cache s |}
    | ORead => {| ms_cur := ms_cur s; ms_cache := Some (mask_read s) |}
    | OInvalidate => {| ms_cur := full; ms_cache := None |}
    | OWeights v => {| ms_cur := v; ms_cache := None |}
    end.
  Definition mask_run (full : V) (s : mask_state) (h : list mask_op) : mask_state := fold_left (mask_step full) h s.
End Cache.
Arguments mask_state : clear implicits.
Arguments mask_op : clear implicits.
