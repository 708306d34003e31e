(* Model of the measures and default masks of /repo/africanus/linalg/geometry.py.  Corners are pixel
   coordinates (integers); lengths and areas are exact reals. *)
From Coq Require Import QArith Qround Reals.
From Verif Require Import Prelude GeomModel.
Close Scope Q_scope.
Open Scope Z_scope.

(* geometry.py:366-369 corners: spat.ConvexHull (an argument) lists the indices of the hull's vertices
   counter-clockwise; the list is reversed *)
Definition corners (vertices : list pt) (hull : list nat) : list pt := rev (map (fun i => nth i vertices (0, 0)) hull).
(* geometry.py:384-393 edges *)
Definition edges (c : list pt) : list (pt * pt) := map (fun i => (nth i c (0, 0), next_corner c i)) (seq 0 (length c)).
(* np.roll(c, -1, axis=0), np.hstack with c *)
Definition roll (c : list pt) : list pt := match c with [] => [] | p :: r => r ++ [p] end.
Definition lines (c : list pt) : list (pt * pt) := combine c (roll c).
(* np.sum *)
Definition rsum (l : list R) : R := fold_left Rplus l 0%R.
(* geometry.py:337-343 circumference *)
Definition norm (v : pt) : R := sqrt (IZR (fst v * fst v + snd v * snd v)).
Definition circumference (c : list pt) : R :=
  rsum (map (fun e => (norm (fst (snd e) - fst (fst e), snd (snd e) - snd (fst e))%Z + 1)%R) (edges c)).
(* geometry.py:345-356 area *)
Definition shoelace (c : list pt) : Z :=
  fold_left Z.add (map (fun e => fst (fst e) * snd (snd e) - fst (snd e) * snd (fst e)) (lines c)) 0.
Definition area (c : list pt) : R := (1 / 2 * Rabs (IZR (shoelace c)) + 1 / 2 * circumference c - 1)%R.
(* geometry.py:395-399 edge_midpoints *)
Definition edge_midpoints (c : list pt) : list (R * R) :=
  map (fun e => ((IZR (fst (fst e)) + IZR (fst (snd e))) / 2, (IZR (snd (fst e)) + IZR (snd (snd e))) / 2)%R) (edges c).
(* geometry.py:444-452 centre of at least one vertex: the mean of all points given, towards zero *)
Definition rnd (x : Q) : Z := if Qle_bool 0 x then Qfloor x else Qceiling x.
Definition mean (l : list Z) : Q := (inject_Z (fold_left Z.add l 0%Z) / inject_Z (Z.of_nat (length l)))%Q.
Definition centre (vertices : list pt) : Z * Z := (rnd (mean (map fst vertices)), rnd (mean (map snd vertices))).

(* geometry.py:80-84 and 500-504: extremes of the corners; a hull has corners *)
Definition min_of (l : list Z) : Z := match l with [] => 0 | a :: _ => zmin_list a l end.
Definition max_of (l : list Z) : Z := match l with [] => 0 | a :: _ => list_max a l end.
Definition bounding_mesh (c : list pt) : list px :=
  mesh (min_of (map fst c)) (max_of (map fst c)) (min_of (map snd c)) (max_of (map snd c)).
(* geometry.py:76-97 init_mask; check: check_mask_outofbounds *)
Definition init_mask (check : bool) (c : list pt) : list px :=
  if check then filter (fun p : px => hull_contains c (snd p, fst p)) (bounding_mesh c) else bounding_mesh c.
(* geometry.py:111-133 the mask setter of a hull, on a list of pairs *)
Definition set_mask (check : bool) (c : list pt) (mask : list px) : list px :=
  if check then filter (fun p : px => hull_contains c (snd p, fst p)) mask else mask.
(* geometry.py:489-495: the vertices of a box, and its corners from the first on, clockwise; scipy may start at any other *)
Definition box_vertices (xl xu yl yu : Z) : list pt := [(xl, yl); (xl, yu); (xu, yu); (xu, yl)].
