(* Boxes, hulls, masks and facets: the theorems *)
From Coq Require Import QArith QArith.Qcanon ZArith Lia.
From Verif Require Import Prelude GeomModel GeomSpec GeomProofs GeomProofs2 GeomProofs3.
Close Scope Qc_scope. Close Scope Q_scope.
Open Scope Z_scope.

(* C60 *)
Theorem C60_split_box_tiles : forall b n, proper b -> (0 < n)%nat ->
  splittable (bxu b - bxl b + 1) n -> splittable (byu b - byl b + 1) n ->
  exists bs, split_box b n = Ok bs /\ length bs = (n * n)%nat /\
    (forall k, (k < n * n)%nat -> proper (nth k bs no_box) /\ box_inside (nth k bs no_box) b) /\
    (forall y x, in_box b y x -> exists k, (k < n * n)%nat /\ in_box (nth k bs no_box) y x /\
       forall j, (j < n * n)%nat -> in_box (nth j bs no_box) y x -> j = k) /\
    (forall k p, (k < n * n)%nat -> In p (bmask (nth k bs no_box)) <-> In p (bmask b) /\ in_box (nth k bs no_box) (fst p) (snd p)) /\
    (forall k w, (k < n * n)%nat -> In w (bwts (nth k bs no_box)) -> w = 1%Qc).
Proof. exact split_box_tiles. Qed.
Theorem C60_row_major : forall b n bs, proper b -> (0 < n)%nat ->
  splittable (bxu b - bxl b + 1) n -> splittable (byu b - byl b + 1) n ->
  split_box b n = Ok bs ->
  (forall iy ix, (iy < n)%nat -> (S ix < n)%nat ->
     let c := nth (iy * n + ix) bs no_box in let d := nth (iy * n + S ix) bs no_box in
     bxl d = bxu c + 1 /\ byl d = byl c /\ byu d = byu c) /\
  (forall iy ix, (S iy < n)%nat -> (ix < n)%nat ->
     let c := nth (iy * n + ix) bs no_box in let d := nth (S iy * n + ix) bs no_box in
     byl d = byu c + 1 /\ bxl d = bxl c /\ bxu d = bxu c).
Proof. exact split_box_row_major. Qed.
Theorem C60_zero_pieces : forall b, split_box b 0 = Raise ValueError.
Proof. reflexivity. Qed.

(* C61 *)
Theorem C61_pad_box : forall b dnx dny, proper b -> bxu b - bxl b + 1 <= dnx -> byu b - byl b + 1 <= dny ->
  exists p, pad_box b dnx dny = Ok p /\ proper p /\ bnx p = dnx /\ bny p = dny /\
    Z.abs ((bxl p + bxu p) - (bxl b + bxu b)) <= 2 /\ Z.abs ((byl p + byu p) - (byl b + byu b)) <= 2 /\
    (forall q, In q (bmask p) <-> In q (bmask b) /\ in_box p (fst q) (snd q)) /\
    (forall y x, in_box b y x -> y < byu b -> x < bxu b -> in_box p y x) /\
    (box_inside b p <-> keeps (bxl b) (bxu b) dnx /\ keeps (byl b) (byu b) dny).
Proof. exact pad_box_spec. Qed.
Theorem C61_too_small : forall b dnx dny, dnx < bnx b \/ dny < bny b -> pad_box b dnx dny = Raise ValueError.
Proof. exact pad_box_too_small. Qed.

(* C62 *)
Theorem C62_partition_of_unity : forall rs (only : bool), Forall region_ok rs -> flat_map r_mask rs <> [] ->
  (only = true -> Forall unit_weights rs) ->
  exists out, normalize_masks rs only = Ok out /\ length out = length rs /\
    (forall p, (exists r, In r rs /\ In p (r_mask r)) ->
       qsum (map (fun r' => weight_at (r_mask r') (r_wts r') p) out) = 1%Qc) /\
    (forall p, ~ (exists r, In r rs /\ In p (r_mask r)) ->
       qsum (map (fun r' => weight_at (r_mask r') (r_wts r') p) out) = 0%Qc).
Proof. exact normalize_partition. Qed.
Theorem C62_equal_shares : forall rs (only : bool), Forall region_ok rs -> flat_map r_mask rs <> [] ->
  (only = true -> Forall unit_weights rs) ->
  exists out, normalize_masks rs only = Ok out /\
    Forall2 (fun r r' => r_is_list r' = r_is_list r /\ r_mask r' = r_mask r /\ length (r_wts r') = length (r_wts r) /\
       forall p, In p (r_mask r) -> weight_at (r_mask r') (r_wts r') p = (1 / QcArith.Qc_of_nat (covering rs p))%Qc) rs out.
Proof. exact normalize_weights. Qed.
Theorem C62_no_pixels : forall rs only, flat_map r_mask rs = [] -> normalize_masks rs only = Raise IndexError.
Proof. exact normalize_nothing. Qed.

(* C63 *)
Theorem C63_regional_data : forall b d oob, proper b -> mask_ok b -> meets b d -> lower_ok b d ->
  exists f, regional_data b d oob = Ok (f, (bxl b, bxu b, byl b, byu b)) /\ facet_fits (f, b) /\
    forall y x, in_box b y x ->
      p_at f (y - byl b) (x - bxl b) =
      (img_at d y x * (if Qc_eq_bool (box_weight b y x) 0 then oob else box_weight b y x))%Qc.
Proof. exact regional_data_spec. Qed.
Theorem C63_project_regions : forall items, items <> [] -> Forall (fun fb : plane * box => proper (snd fb) /\ facet_fits fb) items ->
  exists f bb, project_regions items = Ok (Some (f, bb)) /\ proper bb /\ facet_fits (f, bb) /\
    (forall fb, In fb items -> box_inside (snd fb) bb) /\
    (exists fb, In fb items /\ bxl (snd fb) = bxl bb) /\ (exists fb, In fb items /\ bxu (snd fb) = bxu bb) /\
    (exists fb, In fb items /\ byl (snd fb) = byl bb) /\ (exists fb, In fb items /\ byu (snd fb) = byu bb) /\
    (forall y x, in_box bb y x ->
       p_at f (y - byl bb) (x - bxl bb) = qsum (map (fun fb => facet_at fb y x) items)) /\
    (forall p, In p (bmask bb) <-> (exists fb, In fb items /\ In p (bmask (snd fb))) /\ in_box bb (fst p) (snd p)).
Proof. exact project_regions_spec. Qed.
Theorem C63_wrong_shape : forall items, Forall (fun fb : plane * box => proper (snd fb)) items ->
  Exists (fun fb => ~ facet_fits fb) items -> project_regions items = Raise ValueError.
Proof. exact project_regions_shape. Qed.
Theorem C63_extract_project : forall d bs fs, bs <> [] ->
  Forall (fun b => proper b /\ mask_ok b /\ meets b d /\ lower_ok b d) bs -> facets_of d bs fs ->
  exists f bb, project_regions (combine fs bs) = Ok (Some (f, bb)) /\ proper bb /\
    (forall b, In b bs -> box_inside b bb) /\
    forall y x, in_box bb y x ->
      p_at f (y - byl bb) (x - bxl bb) = (qsum (map (fun b => box_weight b y x) bs) * img_at d y x)%Qc.
Proof. exact extract_project. Qed.
Theorem C63_normalized_reconstruction : forall d bs (only : bool), flat_map bmask bs <> [] ->
  Forall (fun b => proper b /\ mask_ok b /\ meets b d /\ lower_ok b d /\ (forall p, In p (bmask b) -> 0 <= snd p)) bs ->
  (only = true -> forall b w, In b bs -> In w (bwts b) -> w = 1%Qc) ->
  exists out fs f bb, normalize_masks (map region_of bs) only = Ok out /\ facets_of d (with_weights bs out) fs /\
    project_regions (combine fs (with_weights bs out)) = Ok (Some (f, bb)) /\
    (forall b, In b bs -> box_inside b bb) /\
    forall y x, in_box bb y x ->
      ((exists b, In b bs /\ In (y, x) (bmask b)) -> p_at f (y - byl bb) (x - bxl bb) = img_at d y x) /\
      (~ (exists b, In b bs /\ In (y, x) (bmask b)) -> p_at f (y - byl bb) (x - bxl bb) = 0%Qc).
Proof. exact normalized_reconstruct. Qed.

(* C81 *)
Theorem C81_hull_contains : forall c s, hull_contains c s = true <-> forall p q, is_edge c p q -> right_or_on p q s.
Proof. exact hull_contains_spec. Qed.
Theorem C81_hull_convex : forall c a b s, hull_contains c a = true -> hull_contains c b = true ->
  on_segment a b s -> hull_contains c s = true.
Proof. exact hull_contains_convex. Qed.
Theorem C81_no_overlap_sound : forall c1 c2, overlaps_with c1 c2 = false -> ~ hulls_meet c1 c2.
Proof. exact overlaps_false_sound. Qed.

(* C82 *)
Theorem C82_axis_aligned : forall xl xu yl yu cx cy mask odd, xl < xu -> yl < yu ->
  exists b, axis_aligned xl xu yl yu cx cy mask false odd = Ok b /\ proper b /\
    (forall y x, xl <= x <= xu -> yl <= y <= yu -> in_box b y x) /\
    bxl b = xl /\ byl b = yl /\ bxu b <= xu + 1 /\ byu b <= yu + 1 /\
    (odd = true -> bnx b mod 2 = 1 /\ bny b mod 2 = 1) /\
    (odd = false -> bxu b = xu /\ byu b = yu) /\
    (forall p, In p (bmask b) <-> In p mask /\ in_box b (fst p) (snd p)).
Proof. exact axis_aligned_rect. Qed.
Theorem C82_square : forall b, proper b ->
  exists c, axis_aligned (bxl b) (bxu b) (byl b) (byu b) (fst (box_centre b)) (snd (box_centre b)) (bmask b) true true = Ok c /\
    proper c /\ box_inside b c /\ bnx c = bny c /\ bnx c mod 2 = 1 /\
    bnx c <= Z.max (bnx b) (bny b) + 1 /\
    (forall p, In p (bmask c) <-> In p (bmask b) /\ in_box c (fst p) (snd p)).
Proof. exact axis_aligned_square. Qed.

(* C83 *)
Theorem C83_first_read : forall {V} (full : V) s h vs,
  mask_read (mask_run full s (h ++ OInvalidate :: map OSet vs)) = last vs full.
Proof. intros V. exact mask_first_read. Qed.
Theorem C83_normalised : forall {V} (full : V) s h v vs,
  mask_read (mask_run full s (h ++ OWeights v :: map OSet vs)) = last vs v.
Proof. intros V. exact mask_first_read_weights. Qed.
Theorem C83_reads_agree : forall {V} (full : V) s (h : list (mask_op V)), ~ In OInvalidate h -> (forall v, ~ In (OWeights v) h) ->
  mask_read (mask_run full (mask_step full s ORead) h) = mask_read s.
Proof. intros V. exact mask_read_stable. Qed.

(* ---------- examples and counterexamples ---------- *)
Definition get {A} (d : A) (r : res A) : A := match r with Ok a => a | Raise _ => d end.
Definition box_of (xl xu yl yu : Z) : box := get no_box (mk_box xl xu yl yu None).

Example ex_split : splittable 6 2 /\ proper (box_of 0 5 (-2) 3) /\
  map (fun b => (bxl b, bxu b, byl b, byu b)) (get [] (split_box (box_of 0 5 (-2) 3) 2)) =
  [(0, 2, -2, 0); (3, 5, -2, 0); (0, 2, 1, 3); (3, 5, 1, 3)].
Proof. split; [exists 3; cbn; lia|]. split; [repeat split; reflexivity|reflexivity]. Qed.
(* five pixels in four pieces: the step is two, the last piece starts beyond the box and its
   corners are exchanged, so it sticks out of the parent and overlaps its neighbour *)
Theorem C60_uneven_refuted : ~ (forall b n bs, proper b -> (0 < n)%nat -> split_box b n = Ok bs ->
  forall k, (k < n * n)%nat -> box_inside (nth k bs no_box) b).
Proof.
  intros H. specialize (H (box_of 0 4 0 4) 4%nat (get [] (split_box (box_of 0 4 0 4) 4)) ltac:(repeat split; reflexivity) ltac:(lia) eq_refl 15%nat ltac:(lia) 6 6).
  assert (B : in_box (nth 15 (get [] (split_box (box_of 0 4 0 4) 4)) no_box) 6 6) by (vm_compute; intuition discriminate).
  specialize (H B). vm_compute in H. destruct H as [[_ H] _]. now apply H.
Qed.
(* three pixels in two pieces: the last piece is one pixel wide, which ConvexHull rejects *)
Theorem C60_thin_piece_refuted : ~ (forall b n, proper b -> (0 < n)%nat -> exists bs, split_box b n = Ok bs).
Proof.
  intros H. destruct (H (box_of 0 2 0 2) 2%nat ltac:(repeat split; reflexivity) ltac:(lia)) as (bs & E). vm_compute in E. discriminate.
Qed.

Example ex_pad : proper (box_of 2 6 (-3) 0) /\
  map (fun b => (bxl b, bxu b, byl b, byu b)) [get no_box (pad_box (box_of 2 6 (-3) 0) 8 5)] = [(0, 7, -3, 1)].
Proof. split; [repeat split; reflexivity|reflexivity]. Qed.
(* "padding" a 4 x 4 box to 4 x 4 moves it by one pixel *)
Theorem C61_contains_refuted : ~ (forall b dnx dny p, proper b -> bnx b <= dnx -> bny b <= dny ->
  pad_box b dnx dny = Ok p -> box_inside b p).
Proof.
  intros H. specialize (H (box_of 0 3 0 3) 4 4 (get no_box (pad_box (box_of 0 3 0 3) 4 4)) ltac:(repeat split; reflexivity) ltac:(cbn; lia) ltac:(cbn; lia) eq_refl 3 3).
  assert (B : in_box (box_of 0 3 0 3) 3 3) by (vm_compute; intuition discriminate).
  specialize (H B). vm_compute in H. destruct H as [[_ H] _]. now apply H.
Qed.

(* masks: two overlapping regions, one list and one ndarray *)
Definition rg1 : region := {| r_is_list := true; r_mask := [(0, 0); (0, 1); (-1, 1)]; r_wts := [1%Qc; 1%Qc; 1%Qc] |}.
Definition rg2 : region := {| r_is_list := false; r_mask := [(0, 1); (2, 0)]; r_wts := [1%Qc; 1%Qc] |}.
Ltac nodup := repeat (constructor; [cbn; let H := fresh in intros H; repeat (destruct H as [H|H]; [discriminate H|]); exact H|]); constructor.
Example ex_regions : Forall region_ok [rg1; rg2] /\ Forall unit_weights [rg1; rg2].
Proof.
  split; repeat constructor; try (cbn; intuition discriminate).
  - intros p. cbn. intuition (subst; cbn; lia).
  - intros p. cbn. intuition (subst; cbn; lia).
  - intros w. cbn. intuition (subst; reflexivity).
  - intros w. cbn. intuition (subst; reflexivity).
Qed.
Example ex_normalize : map (fun r => map this (r_wts r)) (get [] (normalize_masks [rg1; rg2] true)) =
  [[1%Q; (1 # 2)%Q; 1%Q]; [(1 # 2)%Q; 1%Q]].
Proof. vm_compute. reflexivity. Qed.
(* pixels left of the origin: (0, -1) and (-1, 1) share a flat index and spoil each other *)
Theorem C62_negative_x_refuted : ~ (forall rs only out p, Forall unit_weights rs ->
  normalize_masks rs only = Ok out -> (exists r, In r rs /\ In p (r_mask r)) ->
  qsum (map (fun r' => weight_at (r_mask r') (r_wts r') p) out) = 1%Qc).
Proof.
  set (r := {| r_is_list := true; r_mask := [(0, -1); (-1, 1)]; r_wts := [1%Qc; 1%Qc] |}).
  intros H. specialize (H [r] true (get [] (normalize_masks [r] true)) (-1, 1)).
  assert (U : Forall unit_weights [r]). { repeat constructor. intros w. cbn. intuition (subst; reflexivity). }
  specialize (H U eq_refl (ex_intro _ r (conj (or_introl eq_refl) (or_intror (or_introl eq_refl))))).
  apply (f_equal this) in H. vm_compute in H. discriminate.
Qed.

(* facets of a 4 x 5 image *)
Definition im : plane := {| p_ny := 4; p_nx := 5; p_at := fun y x => Q2Qc (inject_Z (10 * y + x + 1)) |}.
Definition fb1 : box := box_of 0 2 0 2.
Definition fb2 : box := box_of 2 5 1 4.
Lemma mesh_box_ok xl xu yl yu : xl < xu -> yl < yu -> mask_ok (box_of xl xu yl yu).
Proof.
  intros X Y. unfold box_of, mk_box. destruct (Z.eqb_spec xl xu); [lia|]. destruct (Z.eqb_spec yl yu); [lia|]. cbn [orb get].
  rewrite !Z.min_l, !Z.max_r by lia. unfold mask_ok, in_box. cbn [bmask bwts bxl bxu byl byu].
  assert (R : forall lo hi z, In z (zrange lo hi) -> lo <= z <= hi).
  { intros lo hi z I. unfold zrange in I. apply in_map_iff in I. destruct I as (k & <- & I). apply in_seq in I. lia. }
  assert (NR : forall lo hi, NoDup (zrange lo hi)).
  { intros. apply FinFun.Injective_map_NoDup; [intros a b; lia|apply seq_NoDup]. }
  split; [|split].
  - unfold mesh. pose proof (NR xl xu) as N. induction N as [|x l Nx N IH]; [constructor|]. cbn [flat_map].
    assert (ND : forall (a b : list px), NoDup a -> NoDup b -> (forall p, In p a -> ~ In p b) -> NoDup (a ++ b)).
    { clear. induction a as [|p a IHa]; intros b Na Nb D; [exact Nb|]. cbn. apply NoDup_cons_iff in Na. destruct Na as [Np Na]. constructor.
      - intros I. apply in_app_or in I. destruct I as [I|I]; [auto|]. apply (D p); [now left|exact I].
      - apply IHa; auto. intros q I. apply D. now right. }
    apply ND; [|exact IH|].
    + apply FinFun.Injective_map_NoDup; [intros a b E; congruence|apply NR].
    + intros p I J. apply in_map_iff in I. destruct I as (y & <- & _). apply in_flat_map in J. destruct J as (x' & Ix' & J).
      apply in_map_iff in J. destruct J as (y' & E & _). apply Nx. congruence.
  - apply map_length.
  - intros p I. apply in_flat_map in I. destruct I as (x & Ix & I). apply in_map_iff in I. destruct I as (y & <- & Iy). cbn [fst snd].
    apply R in Ix, Iy. lia.
Qed.
Example ex_facets : Forall (fun b => proper b /\ mask_ok b /\ meets b im /\ lower_ok b im /\ (forall p, In p (bmask b) -> 0 <= snd p)) [fb1; fb2].
Proof.
  repeat apply Forall_cons; [| |constructor].
  - split; [repeat split; reflexivity|]. split; [apply mesh_box_ok; lia|]. split; [exists 1, 1; vm_compute; intuition discriminate|].
    split; [vm_compute; intuition discriminate|]. intros p I. apply (mesh_box_ok 0 2 0 2) in I; [|lia|lia]. assert (0 <= snd p) by apply I. lia.
  - split; [repeat split; reflexivity|]. split; [apply mesh_box_ok; lia|]. split; [exists 2, 2; vm_compute; intuition discriminate|].
    split; [vm_compute; intuition discriminate|]. intros p I. apply (mesh_box_ok 2 5 1 4) in I; [|lia|lia].
    assert (2 <= snd p) by apply I. lia.
Qed.
Definition run_facets : list Qc :=
  let bs := with_weights [fb1; fb2] (get [] (normalize_masks (map region_of [fb1; fb2]) true)) in
  let fs := map (fun b => fst (get (im, (0, 0, 0, 0)) (regional_data b im 0%Qc))) bs in
  match get None (project_regions (combine fs bs)) with
  | Some (f, _) => [p_at f 0 0; p_at f 1 2; p_at f 2 2; p_at f 3 4; p_at f 0 5; p_at f 4 3]
  | None => []
  end.
Example ex_reconstruct : map this run_facets = [1%Q; 13%Q; 23%Q; 35%Q; 0%Q; 0%Q].
Proof. vm_compute. reflexivity. Qed.

(* the check compares x with the number of rows and y with the number of columns: a region inside
   a wide image is refused *)
Theorem C63_swapped_axes_refuted : ~ (forall b d oob, proper b -> mask_ok b -> meets b d ->
  exists r, regional_data b d oob = Ok r).
Proof.
  intros H. destruct (H (box_of 5 6 0 1) {| p_ny := 2; p_nx := 10; p_at := fun _ _ => 1%Qc |} 0%Qc) as (r & E).
  - repeat split; reflexivity.
  - apply mesh_box_ok; lia.
  - exists 0, 5. vm_compute. intuition discriminate.
  - vm_compute in E. discriminate.
Qed.
(* portions outside the image are not set to oob_value: zeros are multiplied by it *)
Theorem C63_oob_value_refuted : ~ (forall b d oob f ext, proper b -> mask_ok b -> meets b d -> lower_ok b d ->
  regional_data b d oob = Ok (f, ext) ->
  forall y x, in_box b y x -> ~ in_image d y x -> p_at f (y - byl b) (x - bxl b) = oob).
Proof.
  intros H. set (d := {| p_ny := 2; p_nx := 2; p_at := fun _ _ => 1%Qc |}).
  specialize (H (box_of (-1) 1 0 1) d 1%Qc (fst (get (im, (0, 0, 0, 0)) (regional_data (box_of (-1) 1 0 1) d 1%Qc)))
    (-1, 1, 0, 1) ltac:(repeat split; reflexivity) (mesh_box_ok (-1) 1 0 1 ltac:(lia) ltac:(lia))).
  assert (M : meets (box_of (-1) 1 0 1) d) by (exists 0, 0; vm_compute; intuition discriminate).
  assert (L : lower_ok (box_of (-1) 1 0 1) d) by (vm_compute; intuition discriminate).
  specialize (H M L eq_refl 0 (-1)).
  assert (B : in_box (box_of (-1) 1 0 1) 0 (-1)) by (vm_compute; intuition discriminate).
  assert (N : ~ in_image d 0 (-1)) by (unfold in_image; cbn; lia).
  specialize (H B N). apply (f_equal this) in H. vm_compute in H. discriminate.
Qed.

(* hulls: a clockwise triangle and a far away square *)
Definition tri : list pt := [(0, 0); (0, 4); (4, 0)].
Definition sq : list pt := [(10, 10); (10, 12); (12, 12); (12, 10)].
Example ex_hull : hull_contains tri (1, 1) = true /\ hull_contains tri (2, 2) = true /\ hull_contains tri (3, 2) = false /\
  overlaps_with tri sq = false /\ hulls_meet tri [(1, 1); (5, 5); (5, 1)].
Proof.
  repeat split.
  exists [2; 1; 1], [4; 0; 0]. repeat split; cbn; try lia; intros k H; lia.
Qed.
(* distances are scaled by the length of one particular edge: two long thin boxes four pixels
   apart are reported as overlapping *)
Definition long_box (x0 : Z) : list pt := [(x0, 0); (x0, 1); (x0 + 1000, 1); (x0 + 1000, 0)].
Definition long_box' : list pt := [(0, 1); (1000, 1); (1000, 0); (0, 0)].
Theorem C81_overlap_complete_refuted : ~ (forall c1 c2, overlaps_with c1 c2 = true -> hulls_meet c1 c2).
Proof.
  intros H. specialize (H long_box' (long_box 1004) eq_refl).
  revert H. apply (separated _ _ (1, 0)). reflexivity.
Qed.
(* a square box around a hull need not contain it: the centre is the mean of the vertices *)
Theorem C82_square_hull_refuted : ~ (forall xl xu yl yu cx cy mask b, xl <= cx <= xu -> yl <= cy <= yu ->
  axis_aligned xl xu yl yu cx cy mask true true = Ok b -> in_box b yu xu).
Proof.
  intros H. specialize (H 0 10 0 10 3 3 [] (get no_box (axis_aligned 0 10 0 10 3 3 [] true true)) ltac:(lia) ltac:(lia) eq_refl).
  vm_compute in H. destruct H as [[_ H] _]. now apply H.
Qed.
Example ex_square : map (fun b => (bxl b, bxu b, byl b, byu b))
   [get no_box (axis_aligned 0 9 2 5 4 3 [] true true); get no_box (axis_aligned 0 9 2 5 4 3 [] false true)] =
   [(-1, 9, -2, 8); (0, 10, 2, 6)].
Proof. reflexivity. Qed.
(* a mask set after the first read is not seen *)
Theorem C83_stale_refuted : ~ (forall (full v : nat) s, mask_read (mask_step full s (OSet v)) = v).
Proof. intros H. specialize (H 0%nat 1%nat {| ms_cur := 0%nat; ms_cache := Some 0%nat |}). discriminate. Qed.
Example ex_cache : mask_read (mask_run 7%nat {| ms_cur := 1%nat; ms_cache := None |} [OSet 2%nat; ORead; OSet 3%nat; OInvalidate; OSet 4%nat]) = 4%nat /\
  mask_read (mask_run 7%nat {| ms_cur := 1%nat; ms_cache := None |} [OSet 2%nat; ORead; OSet 3%nat]) = 2%nat /\
  mask_read (mask_run 7%nat {| ms_cur := 1%nat; ms_cache := None |} [OSet 2%nat; ORead; OWeights 5%nat]) = 5%nat.
Proof. repeat split. Qed.

Print Assumptions C60_split_box_tiles.
Print Assumptions C60_row_major.
Print Assumptions C60_zero_pieces.
Print Assumptions C60_uneven_refuted.
Print Assumptions C60_thin_piece_refuted.
Print Assumptions C61_pad_box.
Print Assumptions C61_too_small.
Print Assumptions C61_contains_refuted.
Print Assumptions C62_partition_of_unity.
Print Assumptions C62_equal_shares.
Print Assumptions C62_no_pixels.
Print Assumptions C62_negative_x_refuted.
Print Assumptions C63_regional_data.
Print Assumptions C63_project_regions.
Print Assumptions C63_wrong_shape.
Print Assumptions C63_extract_project.
Print Assumptions C63_normalized_reconstruction.
Print Assumptions C63_swapped_axes_refuted.
Print Assumptions C63_oob_value_refuted.
Print Assumptions C81_hull_contains.
Print Assumptions C81_hull_convex.
Print Assumptions C81_no_overlap_sound.
Print Assumptions C81_overlap_complete_refuted.
Print Assumptions C82_axis_aligned.
Print Assumptions C82_square.
Print Assumptions C82_square_hull_refuted.
Print Assumptions C83_first_read.
Print Assumptions C83_normalised.
Print Assumptions C83_reads_agree.
Print Assumptions C83_stale_refuted.
