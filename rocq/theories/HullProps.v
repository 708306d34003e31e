(* Measures, default masks and centres of hulls: the theorems *)
From Coq Require Import QArith QArith.Qcanon Reals Lra Lia.
From Verif Require Import Prelude GeomModel GeomSpec HullModel HullSpec HullProofs HullProofs2 HullProofs3.
Close Scope Qc_scope. Close Scope Q_scope.
Open Scope Z_scope.

(* C112 *)
(* area: that of the polygon, seen from any point inside as triangles, plus half the circumference minus one *)
Theorem C112_area : forall c o, inside c o -> area c = (enclosed o c + (perimeter c + INR (length c)) / 2 - 1)%R.
Proof. exact area_enclosed. Qed.
Theorem C112_circumference : forall c, circumference c = (perimeter c + INR (length c))%R.
Proof. exact circumference_perimeter. Qed.
(* neither depends on the first corner, the sense of rotation, the place or the names of the axes *)
Theorem C112_first_corner : forall a b, area (b ++ a) = area (a ++ b) /\ circumference (b ++ a) = circumference (a ++ b).
Proof. exact area_start. Qed.
Theorem C112_reversed : forall c, area (rev c) = area c /\ circumference (rev c) = circumference c.
Proof. exact area_rev. Qed.
Theorem C112_moved : forall dx dy c, area (map (shift dx dy) c) = area c /\ circumference (map (shift dx dy) c) = circumference c.
Proof. exact area_shift. Qed.
Theorem C112_axes_swapped : forall c, area (map swap c) = area c /\ circumference (map swap c) = circumference c.
Proof. exact area_swap. Qed.
(* for a box the area is the number of its pixels, and its mask has each of them once *)
Theorem C112_box : forall xl xu yl yu c, xl < xu -> yl < yu -> box_corners xl xu yl yu c ->
  area c = IZR ((xu - xl + 1) * (yu - yl + 1)) /\ circumference c = IZR (2 * ((xu - xl + 1) + (yu - yl + 1))).
Proof. exact box_area. Qed.
Theorem C112_box_pixels : forall xl xu yl yu b c, mk_box xl xu yl yu None = Ok b -> box_corners (bxl b) (bxu b) (byl b) (byu b) c ->
  area c = INR (length (bmask b)) /\ NoDup (bmask b) /\ (forall y x, In (y, x) (bmask b) <-> in_box b y x).
Proof. exact box_area_pixels. Qed.
Theorem C112_split : forall b n bs (corners_of : box -> list pt), proper b -> (0 < n)%nat ->
  splittable (bxu b - bxl b + 1) n -> splittable (byu b - byl b + 1) n -> split_box b n = Ok bs ->
  (forall c, In c (b :: bs) -> box_corners (bxl c) (bxu c) (byl c) (byu c) (corners_of c)) ->
  total (fun c => area (corners_of c)) bs = area (corners_of b).
Proof. exact split_areas. Qed.
(* the default mask of a hull has every pixel inside exactly once *)
Theorem C112_mask : forall c, solid c -> NoDup (init_mask true c) /\ forall y x, In (y, x) (init_mask true c) <-> inside c (x, y).
Proof. exact hull_mask. Qed.
Theorem C112_mask_unchecked : forall c, c <> [] -> NoDup (init_mask false c) /\ forall y x, In (y, x) (init_mask false c) <->
  (exists p q, In p c /\ In q c /\ fst p <= x <= fst q) /\ (exists p q, In p c /\ In q c /\ snd p <= y <= snd q).
Proof. exact hull_mask_unchecked. Qed.
Theorem C112_mask_set : forall c m y x, In (y, x) (set_mask true c m) <-> In (y, x) m /\ inside c (x, y).
Proof. exact hull_mask_set. Qed.
Theorem C112_mask_box : forall xl xu yl yu c check y x, xl < xu -> yl < yu -> box_corners xl xu yl yu c ->
  In (y, x) (init_mask check c) <-> xl <= x <= xu /\ yl <= y <= yu.
Proof. exact box_hull_mask. Qed.
(* normals: opposite, perpendicular to the edge, as long as it; those on the right point inwards *)
Theorem C112_normals : forall c i, (i < length c)%nat ->
  let p := nth i c (0, 0) in let q := next_corner c i in
  let l := nth i (normals true c) (0, 0) in let r := nth i (normals false c) (0, 0) in
  is_edge c p q /\ l = (- fst r, - snd r) /\ dotz r (fst q - fst p, snd q - snd p) = 0 /\
  dotz r r = (fst q - fst p) * (fst q - fst p) + (snd q - snd p) * (snd q - snd p) /\
  forall o, inside c o -> 0 <= dotz r (fst o - fst p, snd o - snd p).
Proof. exact normals_spec. Qed.
Theorem C112_midpoints : forall c, clockwise c -> length (edge_midpoints c) = length c /\
  forall m p q, In m (edge_midpoints c) -> is_edge c p q ->
    ((IZR (fst q) - IZR (fst p)) * (snd m - IZR (snd p)) - (IZR (snd q) - IZR (snd p)) * (fst m - IZR (fst p)) <= 0)%R.
Proof. exact midpoints_inside. Qed.
(* the centre: the mean of the points given, truncated towards zero *)
Theorem C112_centre : forall v, v <> [] -> let c := centre v in
  (Rabs (IZR (fst c) - average (map fst v)) < 1)%R /\ (Rabs (IZR (snd c) - average (map snd v)) < 1)%R /\
  (Rabs (IZR (fst c)) <= Rabs (average (map fst v)))%R /\ (Rabs (IZR (snd c)) <= Rabs (average (map snd v)))%R /\
  (forall lo hi, (forall p, In p v -> lo <= fst p <= hi) -> lo <= fst c <= hi) /\
  (forall lo hi, (forall p, In p v -> lo <= snd p <= hi) -> lo <= snd c <= hi).
Proof. exact centre_spec. Qed.
Theorem C112_centre_box : forall xl xu yl yu m b, mk_box xl xu yl yu m = Ok b -> centre (box_vertices xl xu yl yu) = box_centre b.
Proof. exact centre_box. Qed.

(* ---------- examples and counterexamples ---------- *)
Definition tri : list pt := [(0, 0); (0, 1); (1, 0)].
Definition quad : list pt := [(-1, 0); (2, 3); (4, 0); (1, -2)].
Lemma edges_clockwise c : forallb (fun o => forallb (fun e : pt * pt =>
    Z.leb ((fst (snd e) - fst (fst e)) * (snd o - snd (fst e)) - (snd (snd e) - snd (fst e)) * (fst o - fst (fst e))) 0) (edges c)) c = true -> clockwise c.
Proof.
  intros H o I p q E. rewrite forallb_forall in H. specialize (H o I). rewrite forallb_forall in H.
  apply edges_is_edge in E. specialize (H _ E). apply Z.leb_le in H. exact H.
Qed.
Example ex_hull : clockwise quad /\ solid quad /\ inside quad (1, 0) /\ length (init_mask true quad) = 17%nat /\ shoelace quad = -25 /\
  centre quad = (1, 0) /\ ~ inside quad (4, 1).
Proof.
  split; [now apply edges_clockwise|]. split; [exists (-1, 0), (2, 3), (4, 0); cbn; repeat split; auto; lia|].
  split; [intros p q E; apply edges_is_edge in E; cbn in E; destruct E as [E|[E|[E|[E|[]]]]]; injection E as <- <-; unfold right_or_on; cbn; lia|].
  split; [reflexivity|]. split; [reflexivity|]. split; [reflexivity|].
  intros H. assert (E : is_edge quad (2, 3) (4, 0)) by (apply edges_is_edge; cbn; auto). specialize (H _ _ E). unfold right_or_on in H. cbn in H. lia.
Qed.
Example ex_box : exists b, mk_box 3 7 (-2) 1 None = Ok b /\ length (bmask b) = 20%nat /\ box_corners 3 7 (-2) 1 [(7, 1); (7, -2); (3, -2); (3, 1)].
Proof. eexists. split; [reflexivity|]. split; [reflexivity|]. exists [(3, -2); (3, 1)], [(7, 1); (7, -2)]. split; reflexivity. Qed.
(* the area of another hull is not the number of its pixels *)
Theorem C112_pixels_refuted : ~ (forall c, clockwise c -> solid c -> area c = INR (length (init_mask true c))).
Proof.
  intros H. assert (C : clockwise tri) by now apply edges_clockwise.
  assert (S : solid tri) by (exists (0, 0), (0, 1), (1, 0); cbn; repeat split; auto; lia).
  specialize (H tri C S). change (init_mask true tri) with [(0, 0); (1, 0); (0, 1)] in H.
  rewrite area_cross, circumference_perimeter in H. unfold perimeter, tri, around, walk, distance, cross in H. cbn [fst snd length INR] in H.
  replace (Rsqr (0 - 0) + Rsqr (0 - 1))%R with 1%R in H by (unfold Rsqr; ring).
  replace (Rsqr (0 - 1) + Rsqr (1 - 0))%R with 2%R in H by (unfold Rsqr; ring).
  replace (Rsqr (1 - 0) + Rsqr (0 - 0))%R with 1%R in H by (unfold Rsqr; ring).
  rewrite sqrt_1 in H. replace (0 * 1 - 0 * 0 + (0 * 0 - 1 * 1 + (1 * 0 - 0 * 0)))%R with (-1)%R in H by ring.
  rewrite (Rabs_left (-1)) in H by lra. assert (Q : sqrt 2 = 2%R) by lra.
  assert (sqrt 2 * sqrt 2 = 2)%R by (apply sqrt_sqrt; lra). rewrite Q in H0. lra.
Qed.
(* the unchecked mask has pixels outside *)
Theorem C112_mask_unchecked_refuted : ~ (forall c y x, clockwise c -> solid c -> In (y, x) (init_mask false c) -> inside c (x, y)).
Proof.
  intros H. assert (C : clockwise tri) by now apply edges_clockwise.
  assert (S : solid tri) by (exists (0, 0), (0, 1), (1, 0); cbn; repeat split; auto; lia).
  assert (E : is_edge tri (0, 1) (1, 0)) by (apply edges_is_edge; cbn; auto).
  specialize (H tri 1 1 C S ltac:(vm_compute; auto) _ _ E). unfold right_or_on in H. cbn in H. lia.
Qed.
(* the centre may lie outside, depends on points inside the hull, and does not move with the hull *)
Theorem C112_centre_inside_refuted : ~ (forall c, clockwise c -> solid c -> inside c (centre c)).
Proof.
  intros H. set (c := [(0, 1); (1, 1); (1, 0)] : list pt). assert (C : clockwise c) by now apply edges_clockwise.
  assert (S : solid c) by (exists (0, 1), (1, 1), (1, 0); cbn; repeat split; auto; lia).
  assert (E : is_edge c (1, 0) (0, 1)) by (apply edges_is_edge; cbn; auto).
  specialize (H c C S _ _ E). vm_compute in H. now apply H.
Qed.
Theorem C112_centre_of_hull_refuted : exists v hull p, clockwise (corners v hull) /\ inside (corners v hull) p /\
  corners (v ++ [p]) hull = corners v hull /\ centre (v ++ [p]) <> centre v.
Proof.
  exists [(0, 0); (9, 0); (9, 9); (0, 9)], [0; 1; 2; 3]%nat, (1, 1). split; [now apply edges_clockwise|]. split.
  - intros p q E. apply edges_is_edge in E. cbn in E. destruct E as [E|[E|[E|[E|[]]]]]; injection E as <- <-; unfold right_or_on; cbn; lia.
  - split; [reflexivity|]. vm_compute. intros E. discriminate E.
Qed.
Theorem C112_centre_moves_refuted : ~ (forall dx dy v, v <> [] -> centre (map (shift dx dy) v) = shift dx dy (centre v)).
Proof. intros H. specialize (H 1 1 [(-1, -1); (-1, 0); (0, 0); (0, -1)] ltac:(discriminate)). vm_compute in H. discriminate H. Qed.
Print Assumptions C112_area.
Print Assumptions C112_circumference.
Print Assumptions C112_first_corner.
Print Assumptions C112_reversed.
Print Assumptions C112_moved.
Print Assumptions C112_axes_swapped.
Print Assumptions C112_box.
Print Assumptions C112_box_pixels.
Print Assumptions C112_split.
Print Assumptions C112_mask.
Print Assumptions C112_mask_unchecked.
Print Assumptions C112_mask_set.
Print Assumptions C112_mask_box.
Print Assumptions C112_normals.
Print Assumptions C112_midpoints.
Print Assumptions C112_centre.
Print Assumptions C112_centre_box.
Print Assumptions C112_pixels_refuted.
Print Assumptions C112_mask_unchecked_refuted.
Print Assumptions C112_centre_inside_refuted.
Print Assumptions C112_centre_of_hull_refuted.
Print Assumptions C112_centre_moves_refuted.
