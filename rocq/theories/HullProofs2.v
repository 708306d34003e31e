(* Boxes and masks *)
From Coq Require Import QArith Qround QArith.Qcanon Reals Lra Lia Permutation.
From Verif Require Import Prelude GeomModel GeomSpec GeomProofs HullModel HullSpec HullProofs.
Close Scope Qc_scope. Close Scope Q_scope.
Open Scope Z_scope.

(* ---------- the mesh ---------- *)
Lemma zrange_in lo hi x : In x (zrange lo hi) <-> lo <= x <= hi.
Proof.
  unfold zrange. rewrite in_map_iff. split.
  - intros (k & <- & I). apply in_seq in I. lia.
  - intros H. exists (Z.to_nat (x - lo)). split; [lia|apply in_seq; lia].
Qed.
Lemma zrange_length lo hi : length (zrange lo hi) = Z.to_nat (hi - lo + 1).
Proof. unfold zrange. now rewrite map_length, seq_length. Qed.
Lemma zrange_nodup lo hi : NoDup (zrange lo hi).
Proof. unfold zrange. apply FinFun.Injective_map_NoDup; [intros a b; lia|apply seq_NoDup]. Qed.
Lemma mesh_in xl xu yl yu y x : In (y, x) (mesh xl xu yl yu) <-> xl <= x <= xu /\ yl <= y <= yu.
Proof.
  unfold mesh. rewrite in_flat_map. split.
  - intros (x' & I & J). apply in_map_iff in J. destruct J as (y' & E & J). injection E as -> ->. rewrite zrange_in in I, J. auto.
  - intros [I J]. exists x. rewrite zrange_in. split; [exact I|]. apply in_map_iff. exists y. rewrite zrange_in. auto.
Qed.
Lemma flat_map_length_sum {A B} (f : A -> list B) l : length (flat_map f l) = list_sum (map (fun a => length (f a)) l).
Proof. induction l as [|a l IH]; [reflexivity|]. cbn [flat_map]. rewrite app_length, IH. reflexivity. Qed.
Lemma mesh_length xl xu yl yu : length (mesh xl xu yl yu) = (Z.to_nat (xu - xl + 1) * Z.to_nat (yu - yl + 1))%nat.
Proof.
  unfold mesh. rewrite flat_map_length_sum, <- (zrange_length xl xu), <- (zrange_length yl yu). generalize (zrange xl xu). intros l.
  induction l as [|a l IH]; [reflexivity|]. cbn [map length]. unfold list_sum in *. cbn [fold_right]. rewrite IH, map_length. lia.
Qed.
Lemma nodup_flat {A B} (f : A -> list B) l : NoDup l -> (forall a, NoDup (f a)) -> (forall a b x, In x (f a) -> In x (f b) -> a = b) -> NoDup (flat_map f l).
Proof.
  intros N F D. induction N as [|a l NI N IH]; [constructor|]. cbn [flat_map].
  assert (G : forall x, In x (f a) -> ~ In x (flat_map f l)).
  { intros x I J. apply in_flat_map in J. destruct J as (b & Ib & J). rewrite (D a b x I J) in NI. now apply NI. }
  specialize (F a). induction F as [|x m NX F IHF]; [exact IH|]. cbn [app]. constructor.
  - rewrite in_app_iff. intros [J|J]; [now apply NX|]. apply (G x); [now left|exact J].
  - apply IHF. intros z I. apply G. now right.
Qed.
Lemma mesh_nodup xl xu yl yu : NoDup (mesh xl xu yl yu).
Proof.
  unfold mesh. apply nodup_flat.
  - apply zrange_nodup.
  - intros a. apply FinFun.Injective_map_NoDup; [intros u v E; now injection E|apply zrange_nodup].
  - intros a b x I J. apply in_map_iff in I, J. destruct I as (? & <- & _), J as (? & E & _). now injection E.
Qed.

(* ---------- boxes ---------- *)
Lemma box_area_first xl xu yl yu : xl < xu -> yl < yu ->
  area (box_vertices xl xu yl yu) = IZR ((xu - xl + 1) * (yu - yl + 1)) /\
  circumference (box_vertices xl xu yl yu) = IZR (2 * ((xu - xl + 1) + (yu - yl + 1))).
Proof.
  intros X Y. apply IZR_lt in X, Y.
  assert (P : perimeter (box_vertices xl xu yl yu) = (2 * (IZR xu - IZR xl) + 2 * (IZR yu - IZR yl))%R).
  { unfold perimeter, box_vertices, around, walk, distance. cbn [fst snd].
    replace (Rsqr (IZR xl - IZR xl) + Rsqr (IZR yl - IZR yu))%R with (Rsqr (IZR yu - IZR yl)) by (unfold Rsqr; ring).
    replace (Rsqr (IZR xl - IZR xu) + Rsqr (IZR yu - IZR yu))%R with (Rsqr (IZR xu - IZR xl)) by (unfold Rsqr; ring).
    replace (Rsqr (IZR xu - IZR xu) + Rsqr (IZR yu - IZR yl))%R with (Rsqr (IZR yu - IZR yl)) by (unfold Rsqr; ring).
    replace (Rsqr (IZR xu - IZR xl) + Rsqr (IZR yl - IZR yl))%R with (Rsqr (IZR xu - IZR xl)) by (unfold Rsqr; ring).
    rewrite !sqrt_Rsqr by lra. ring. }
  assert (C : circumference (box_vertices xl xu yl yu) = IZR (2 * ((xu - xl + 1) + (yu - yl + 1)))).
  { rewrite circumference_perimeter, P. cbn [length box_vertices]. rewrite mult_IZR, !plus_IZR, !minus_IZR. cbn [INR]. ring. }
  split; [|exact C]. rewrite area_cross, C.
  assert (A : around cross (box_vertices xl xu yl yu) = (- (2 * ((IZR xu - IZR xl) * (IZR yu - IZR yl))))%R).
  { unfold box_vertices, around, walk, cross. cbn [fst snd]. ring. }
  rewrite A, Rabs_Ropp, Rabs_pos_eq by (apply Rmult_le_pos; [lra|apply Rmult_le_pos; lra]).
  rewrite !mult_IZR, !plus_IZR, !minus_IZR. field.
Qed.
Theorem box_area xl xu yl yu c : xl < xu -> yl < yu -> box_corners xl xu yl yu c ->
  area c = IZR ((xu - xl + 1) * (yu - yl + 1)) /\ circumference c = IZR (2 * ((xu - xl + 1) + (yu - yl + 1))).
Proof.
  intros X Y (a & b & E & ->). destruct (area_start a b) as [-> ->]. rewrite <- E. now apply box_area_first.
Qed.
Lemma mk_box_extents xl xu yl yu m b : mk_box xl xu yl yu m = Ok b ->
  (bxl b = Z.min xl xu /\ bxu b = Z.max xl xu /\ byl b = Z.min yl yu /\ byu b = Z.max yl yu /\ xl <> xu /\ yl <> yu) /\
  (m = None -> bmask b = mesh (bxl b) (bxu b) (byl b) (byu b)).
Proof.
  unfold mk_box. destruct (Z.eqb_spec xl xu); [discriminate|]. destruct (Z.eqb_spec yl yu); [discriminate|]. cbn [orb].
  intros E. injection E as <-. cbn. repeat split; auto. intros ->. reflexivity.
Qed.
Theorem box_area_pixels xl xu yl yu b c : mk_box xl xu yl yu None = Ok b -> box_corners (bxl b) (bxu b) (byl b) (byu b) c ->
  area c = INR (length (bmask b)) /\ NoDup (bmask b) /\ (forall y x, In (y, x) (bmask b) <-> in_box b y x).
Proof.
  intros E C. destruct (mk_box_extents _ _ _ _ _ _ E) as [(E1 & E2 & E3 & E4 & N1 & N2) M]. rewrite (M eq_refl).
  split; [|split; [apply mesh_nodup|intros y x; apply mesh_in]].
  assert (X : bxl b < bxu b) by lia. assert (Y : byl b < byu b) by lia.
  destruct (box_area _ _ _ _ c X Y C) as [-> _]. rewrite mesh_length, INR_IZR_INZ. f_equal.
  rewrite Nat2Z.inj_mul, !Z2Nat.id by lia. reflexivity.
Qed.

(* ---------- splitting keeps the area ---------- *)
Lemma total_nat {A} (f : A -> R) (g : A -> nat) l : (forall a, In a l -> f a = INR (g a)) -> total f l = INR (list_sum (map g l)).
Proof.
  intros H. induction l as [|a l IH]; [reflexivity|]. cbn [total fold_right map list_sum]. fold (total f l).
  change (list_sum (g a :: map g l)) with (g a + list_sum (map g l))%nat.
  rewrite plus_INR, IH, H by (intros; try apply H; cbn; auto). reflexivity.
Qed.
Definition pixels (b : box) : list px := mesh (bxl b) (bxu b) (byl b) (byu b).
Lemma nodup_flat_nth (bs : list box) : forall (D : forall i j p, (i < length bs)%nat -> (j < length bs)%nat ->
    In p (pixels (nth i bs no_box)) -> In p (pixels (nth j bs no_box)) -> i = j), NoDup (flat_map pixels bs).
Proof.
  induction bs as [|b bs IH]; intros D; [constructor|]. cbn [flat_map].
  assert (IH' : NoDup (flat_map pixels bs)).
  { apply IH. intros i j p Hi Hj I J. enough (S i = S j) by lia. apply (D (S i) (S j) p); cbn; try lia; assumption. }
  clear IH.
  assert (G : forall p, In p (pixels b) -> ~ In p (flat_map pixels bs)).
  { intros p I J. apply in_flat_map in J. destruct J as (b' & Ib & J). destruct (In_nth _ _ no_box Ib) as (k & Lk & Ek).
    enough (0%nat = S k) by lia. apply (D 0%nat (S k) p); cbn; try lia; [exact I|]. now rewrite Ek. }
  assert (N : NoDup (pixels b)) by apply mesh_nodup. revert G N. generalize (pixels b). intros l G N.
  induction N as [|x m NX N IHN]; [exact IH'|]. cbn [app]. constructor.
  - rewrite in_app_iff. intros [J|J]; [now apply NX|]. apply (G x); [now left|exact J].
  - apply IHN. intros z I. apply G. now right.
Qed.
Theorem split_areas b n bs (corners_of : box -> list pt) : proper b -> (0 < n)%nat ->
  splittable (bxu b - bxl b + 1) n -> splittable (byu b - byl b + 1) n -> split_box b n = Ok bs ->
  (forall c, In c (b :: bs) -> box_corners (bxl c) (bxu c) (byl c) (byu c) (corners_of c)) ->
  total (fun c => area (corners_of c)) bs = area (corners_of b).
Proof.
  intros P Hn HX HY E C. destruct (split_box_tiles b n P Hn HX HY) as (bs' & E' & L & PI & COV & _).
  rewrite E in E'. injection E' as <-.
  assert (A : forall c, In c (b :: bs) -> proper c -> area (corners_of c) = INR (length (pixels c))).
  { intros c I (X & Y & _). destruct (box_area _ _ _ _ _ X Y (C c I)) as [-> _]. unfold pixels. rewrite mesh_length, INR_IZR_INZ. f_equal.
    rewrite Nat2Z.inj_mul, !Z2Nat.id by lia. reflexivity. }
  assert (PB : forall c, In c bs -> proper c /\ box_inside c b).
  { intros c I. destruct (In_nth _ _ no_box I) as (k & Lk & <-). apply PI. lia. }
  rewrite (total_nat _ (fun c => length (pixels c))); [|intros c I; apply A; [now right|apply PB, I]].
  rewrite (A b); [|now left|exact P]. f_equal. rewrite <- (flat_map_length_sum pixels bs).
  apply Permutation_length, NoDup_Permutation.
  - apply nodup_flat_nth. intros i j [y x] Hi Hj I J. unfold pixels in I, J. rewrite mesh_in in I, J. rewrite L in Hi, Hj.
    destruct (COV y x) as (k & _ & _ & U); [apply (proj2 (PI i Hi)); exact I|]. rewrite (U i Hi I), (U j Hj J). reflexivity.
  - apply mesh_nodup.
  - intros [y x]. rewrite in_flat_map. unfold pixels at 2. rewrite mesh_in. split.
    + intros (c & I & J). unfold pixels in J. rewrite mesh_in in J. apply (proj2 (PB c I)), J.
    + intros I. destruct (COV y x I) as (k & Hk & J & _). exists (nth k bs no_box). split; [apply nth_In; lia|]. unfold pixels. rewrite mesh_in. exact J.
Qed.
