(* Specification vocabulary for boxes, masks, facets and hulls. *)
From Coq Require Import QArith QArith.Qcanon.
From Verif Require Import Prelude GeomModel.
Close Scope Qc_scope. Close Scope Q_scope.
Open Scope Z_scope.

(* pixel (y, x) lies in the box *)
Definition in_box (b : box) (y x : Z) : Prop := bxl b <= x <= bxu b /\ byl b <= y <= byu b.
(* the box is what the constructor makes: not flat, recorded sizes, mask inside *)
Definition proper (b : box) : Prop :=
  bxl b < bxu b /\ byl b < byu b /\ bnx b = bxu b - bxl b + 1 /\ bny b = byu b - byl b + 1.
Definition no_box : box := {| bxl := 0; bxu := 0; byl := 0; byu := 0; bnx := 0; bny := 0; bmask := []; bwts := [] |}.
(* box b is inside box c *)
Definition box_inside (b c : box) : Prop := forall y x, in_box b y x -> in_box c y x.
(* a row of w pixels can be cut into n equal pieces (the last may be shorter), each at least two
   pixels wide *)
Definition splittable (w : Z) (n : nat) : Prop := exists s, (Z.of_nat n - 1) * s + 1 < w <= Z.of_nat n * s.

(* padding [lo, hi] to d pixels keeps the last pixel: not for an even number of pixels that is
   not enlarged, with a positive centre (the centre is truncated) *)
Definition keeps (lo hi d : Z) : Prop := ~ (d = hi - lo + 1 /\ (hi - lo + 1) mod 2 = 0 /\ 0 < lo + hi).

(* ---------- masks ---------- *)
Definition px_eq_dec (p q : px) : {p = q} + {p <> q}.
Proof. decide equality; apply Z.eq_dec. Defined.
(* total weight a mask gives to a pixel *)
Fixpoint weight_at (m : list px) (w : list Qc) (p : px) : Qc :=
  match m, w with
  | q :: m', x :: w' => ((if px_eq_dec q p then x else 0) + weight_at m' w' p)%Qc
  | _, _ => 0%Qc
  end.
Definition qsum (l : list Qc) : Qc := fold_right Qcplus 0%Qc l.
(* number of regions whose mask contains p *)
Definition covering (rs : list region) (p : px) : nat :=
  length (filter (fun r => if in_dec px_eq_dec p (r_mask r) then true else false) rs).
Definition region_ok (r : region) : Prop :=
  NoDup (r_mask r) /\ length (r_wts r) = length (r_mask r) /\ forall p, In p (r_mask r) -> 0 <= snd p.
Definition unit_weights (r : region) : Prop := forall w, In w (r_wts r) -> w = 1%Qc.
(* a box seen as a region, and the box with other weights *)
Definition region_of (b : box) : region := {| r_is_list := false; r_mask := bmask b; r_wts := bwts b |}.
Definition set_wts (b : box) (r : region) : box :=
  {| bxl := bxl b; bxu := bxu b; byl := byl b; byu := byu b; bnx := bnx b; bny := bny b;
     bmask := bmask b; bwts := r_wts r |}.
(* the weight box b gives to pixel (y, x) *)
Definition box_weight (b : box) (y x : Z) : Qc := weight_at (bmask b) (bwts b) (y, x).
Definition mask_ok (b : box) : Prop :=
  NoDup (bmask b) /\ length (bwts b) = length (bmask b) /\ forall p, In p (bmask b) -> in_box b (fst p) (snd p).

(* ---------- images ---------- *)
Definition in_image (d : plane) (y x : Z) : Prop := 0 <= y < p_ny d /\ 0 <= x < p_nx d.
Definition in_imageb (d : plane) (y x : Z) : bool :=
  Z.leb 0 y && Z.ltb y (p_ny d) && Z.leb 0 x && Z.ltb x (p_nx d).
(* the image extended by zeros *)
Definition img_at (d : plane) (y x : Z) : Qc := if in_imageb d y x then p_at d y x else 0%Qc.
(* box and image have a pixel in common *)
Definition meets (b : box) (d : plane) : Prop := exists y x, in_box b y x /\ in_image d y x.
(* the lower corner is not beyond the other axis of the image, see C63_swapped_axes_refuted *)
Definition lower_ok (b : box) (d : plane) : Prop := bxl b <= p_ny d /\ byl b <= p_nx d.
(* contribution of facet f of box b to pixel (y, x) *)
Definition facet_at (fb : plane * box) (y x : Z) : Qc :=
  if box_contains (snd fb) x y then p_at (fst fb) (y - byl (snd fb)) (x - bxl (snd fb)) else 0%Qc.
Definition facet_fits (fb : plane * box) : Prop :=
  p_ny (fst fb) = byu (snd fb) - byl (snd fb) + 1 /\ p_nx (fst fb) = bxu (snd fb) - bxl (snd fb) + 1.

(* fs are the facets cut out of image d for the boxes bs *)
Definition facets_of (d : plane) (bs : list box) (fs : list plane) : Prop :=
  Forall2 (fun b f => exists ext, regional_data b d 0%Qc = Ok (f, ext)) bs fs.
(* the boxes with the weights of the regions *)
Fixpoint with_weights (bs : list box) (rs : list region) : list box :=
  match bs, rs with b :: bs', r :: rs' => set_wts b r :: with_weights bs' rs' | _, _ => [] end.

(* ---------- hulls ---------- *)
(* consecutive corners, cyclically *)
Definition is_edge (c : list pt) (p q : pt) : Prop :=
  exists i, (i < length c)%nat /\ nth_error c i = Some p /\ nth_error c ((i + 1) mod length c) = Some q.
(* s is on the right of, or on, the line from p to q *)
Definition right_or_on (p q s : pt) : Prop :=
  (fst q - fst p) * (snd s - snd p) - (snd q - snd p) * (fst s - fst p) <= 0.
(* s lies on the segment from a to b *)
Definition on_segment (a b s : pt) : Prop :=
  exists k m, 0 <= k /\ 0 <= m /\ 0 < k + m /\
    (k + m) * fst s = k * fst a + m * fst b /\ (k + m) * snd s = k * snd a + m * snd b.
(* weighted sum of corners *)
Fixpoint comb (w : list Z) (c : list pt) : pt :=
  match w, c with
  | k :: w', p :: c' => (k * fst p + fst (comb w' c'), k * snd p + snd (comb w' c'))
  | _, _ => (0, 0)
  end.
Definition zsum (l : list Z) : Z := fold_right Z.add 0 l.
(* the convex hulls of two corner lists share a point: a convex combination of the corners of one
   (weights over a common denominator) equals one of the other *)
Definition hulls_meet (c1 c2 : list pt) : Prop :=
  exists w1 w2, length w1 = length c1 /\ length w2 = length c2 /\
    (forall k, In k w1 -> 0 <= k) /\ (forall k, In k w2 -> 0 <= k) /\
    0 < zsum w1 /\ zsum w1 = zsum w2 /\ comb w1 c1 = comb w2 c2.
