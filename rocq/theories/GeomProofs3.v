(* Extraction of facets from an image and their projection back *)
From Coq Require Import QArith QArith.Qcanon ZArith Lia.
From Verif Require Import Prelude PreludeFacts GeomModel GeomSpec GeomProofs GeomProofs2.
Close Scope Qc_scope. Close Scope Q_scope.
Open Scope Z_scope.

Lemma in_box_iff b y x : in_box b y x <-> in_ext (bxl b) (bxu b) (byl b) (byu b) (y, x) = true.
Proof. rewrite in_ext_spec. unfold in_box. cbn. lia. Qed.
Lemma box_contains_iff b y x : box_contains b x y = true <-> in_box b y x.
Proof. unfold box_contains, in_box. rewrite !andb_true_iff, !Z.leb_le. lia. Qed.

(* ---------- the filled mask ---------- *)
Lemma fill_gen b y x : in_box b y x -> forall m w (f : Z -> Qc), NoDup m -> length w = length m ->
  (forall p, In p m -> in_box b (fst p) (snd p)) ->
  let nx := bxu b - bxl b + 1 in
  fold_left (fun (f : Z -> Qc) (pw : px * Qc) =>
               if in_ext (bxl b) (bxu b) (byl b) (byu b) (fst pw)
               then fun k => if Z.eqb k ((fst (fst pw) - byl b) * nx + (snd (fst pw) - bxl b)) then snd pw else f k
               else f)
            (combine m w) f ((y - byl b) * nx + (x - bxl b)) =
  if in_dec px_eq_dec (y, x) m then weight_at m w (y, x) else f ((y - byl b) * nx + (x - bxl b)).
Proof.
  intros B m w f N L IB nx. revert w f N L IB. induction m as [|[py pxx] m IH]; intros [|v w] f N L IB; try discriminate L; [reflexivity|].
  injection L as L. apply NoDup_cons_iff in N. destruct N as [Np N]. cbn [combine fold_left fst snd].
  pose proof (IB _ (or_introl eq_refl)) as Bp. rewrite (proj1 (in_box_iff b py pxx) Bp).
  rewrite IH; auto; [|intros; apply IB; now right].
  cbn [weight_at]. destruct (px_eq_dec (py, pxx) (y, x)) as [E|E].
  - injection E as -> ->. rewrite Z.eqb_refl.
    destruct (in_dec px_eq_dec (y, x) m); [contradiction|]. destruct (in_dec px_eq_dec (y, x) ((y, x) :: m)) as [|X]; [|exfalso; apply X; now left].
    rewrite weight_at_notin by assumption. symmetry. apply Qcplus_0_r.
  - destruct (Z.eqb_spec ((y - byl b) * nx + (x - bxl b)) ((py - byl b) * nx + (pxx - bxl b))) as [EK|NK].
    + exfalso. apply E. unfold in_box in *. cbn [fst snd] in Bp.
      assert (y - byl b = py - byl b) by (unfold nx in EK; nia). f_equal; nia.
    + destruct (in_dec px_eq_dec (y, x) m) as [I|I], (in_dec px_eq_dec (y, x) ((py, pxx) :: m)) as [J|J]; try reflexivity.
      * symmetry. apply Qcplus_0_l.
      * exfalso. apply J. now right.
      * destruct J; contradiction.
Qed.
Lemma fill_mask_weight b y x : mask_ok b -> in_box b y x -> fill_mask b (y - byl b) (x - bxl b) = box_weight b y x.
Proof.
  intros (N & L & I) B. unfold fill_mask. rewrite fill_gen by assumption. unfold box_weight.
  destruct (in_dec px_eq_dec (y, x) (bmask b)); [reflexivity|]. symmetry. now apply weight_at_notin.
Qed.

(* ---------- one axis of the extraction ---------- *)
Lemma axis_slices lo hi n v : lo < hi -> lo <= v <= hi -> 0 <= v < n ->
  let pad_lo := Z.max 0 (0 - lo) in let pad_hi := Z.max 0 (hi - n + 1) in
  let c := Z.min (hi + 1) n - Z.max lo 0 in
  1 <= c /\ pyslice n (lo + pad_lo) (hi - pad_hi + 1) = (Z.max lo 0, c) /\
  pyslice (hi - lo + 1) pad_lo (- lo + hi + 1 - pad_hi) = (pad_lo, c).
Proof.
  intros H V B pad_lo pad_hi c. unfold pyslice, slice_norm.
  assert (1 <= c) by (unfold c; lia). split; [assumption|].
  split.
  - destruct (Z.ltb_spec (lo + pad_lo) 0); [unfold pad_lo in *; lia|].
    destruct (Z.ltb_spec (hi - pad_hi + 1) 0); [unfold pad_hi in *; lia|]. f_equal; unfold c, pad_lo, pad_hi; lia.
  - destruct (Z.ltb_spec pad_lo 0); [unfold pad_lo in *; lia|].
    destruct (Z.ltb_spec (- lo + hi + 1 - pad_hi) 0); [unfold pad_hi in *; lia|]. f_equal; unfold c, pad_lo, pad_hi; lia.
Qed.

Theorem regional_data_spec b d oob : proper b -> mask_ok b -> meets b d -> lower_ok b d ->
  exists f, regional_data b d oob = Ok (f, (bxl b, bxu b, byl b, byu b)) /\ facet_fits (f, b) /\
    forall y x, in_box b y x ->
      p_at f (y - byl b) (x - bxl b) =
      (img_at d y x * (if Qc_eq_bool (box_weight b y x) 0 then oob else box_weight b y x))%Qc.
Proof.
  intros (Hx & Hy & _) M (vy & vx & [Vx Vy] & [Iy Ix]) [L1 L2]. unfold regional_data.
  destruct (Z.ltb_spec (p_ny d) (bxl b)); [lia|]. destruct (Z.ltb_spec (p_nx d) (byl b)); [lia|].
  destruct (Z.ltb_spec (byu b) 0); [lia|]. destruct (Z.ltb_spec (bxu b) 0); [lia|]. cbn [orb].
  destruct (axis_slices (byl b) (byu b) (p_ny d) vy Hy Vy Iy) as (Cy & Sy & Ty).
  destruct (axis_slices (bxl b) (bxu b) (p_nx d) vx Hx Vx Ix) as (Cx & Sx & Tx).
  rewrite Sy, Sx, Ty, Tx.
  set (cy := Z.min (byu b + 1) (p_ny d) - Z.max (byl b) 0) in *. set (cx := Z.min (bxu b + 1) (p_nx d) - Z.max (bxl b) 0) in *.
  rewrite !Z.eqb_refl. cbn [orb andb].
  assert (VAL : forall (data : Z -> Z -> Qc),
    (forall y x, in_box b y x -> data (y - byl b) (x - bxl b) = img_at d y x) ->
    exists f, Ok ({| p_ny := byu b - byl b + 1; p_nx := bxu b - bxl b + 1;
       p_at := fun y x => (data y x * (let w := fill_mask b y x in if Qc_eq_bool w 0 then oob else w))%Qc |}, (bxl b, bxu b, byl b, byu b)) =
       Ok (f, (bxl b, bxu b, byl b, byu b)) /\ facet_fits (f, b) /\
       forall y x, in_box b y x -> p_at f (y - byl b) (x - bxl b) =
         (img_at d y x * (if Qc_eq_bool (box_weight b y x) 0 then oob else box_weight b y x))%Qc).
  { intros data HD. eexists. split; [reflexivity|]. split; [split; reflexivity|].
    intros y x B. cbn [p_at]. cbv zeta. rewrite fill_mask_weight by assumption. now rewrite HD. }
  match goal with |- context [if ?c then _ else _] => destruct c eqn:PD end; cbn [bind].
  - apply VAL. intros y x [Bx By]. unfold img_at, in_imageb.
    destruct (Z.leb_spec (Z.max 0 (0 - byl b)) (y - byl b)) as [A1|A1];
    destruct (Z.ltb_spec (y - byl b) (Z.max 0 (0 - byl b) + cy)) as [A2|A2];
    destruct (Z.leb_spec (Z.max 0 (0 - bxl b)) (x - bxl b)) as [A3|A3];
    destruct (Z.ltb_spec (x - bxl b) (Z.max 0 (0 - bxl b) + cx)) as [A4|A4]; cbn [andb];
    destruct (Z.leb_spec 0 y); destruct (Z.ltb_spec y (p_ny d)); destruct (Z.leb_spec 0 x); destruct (Z.ltb_spec x (p_nx d)); cbn [andb];
      try (exfalso; unfold cy, cx in *; lia); try apply Qcmult_0_l.
    f_equal.
    + destruct (Z.eqb_spec cy 1); unfold cy in *; lia.
    + destruct (Z.eqb_spec cx 1); unfold cx in *; lia.
  - apply orb_false_iff in PD. destruct PD as [PD P4]. apply orb_false_iff in PD. destruct PD as [PD P3]. apply orb_false_iff in PD. destruct PD as [P1 P2].
    apply Z.ltb_ge in P1, P2, P3, P4. apply VAL. intros y x [Bx By]. unfold img_at, in_imageb.
    destruct (Z.leb_spec 0 y); destruct (Z.ltb_spec y (p_ny d)); destruct (Z.leb_spec 0 x); destruct (Z.ltb_spec x (p_nx d)); cbn [andb]; try lia.
    f_equal; lia.
Qed.

(* ---------- projection ---------- *)
Lemma list_max_in l : forall d, list_max d l = d \/ In (list_max d l) l.
Proof.
  unfold list_max. induction l as [|y l IH]; intros d; [now left|]. cbn. destruct (IH (Z.max d y)) as [E|I].
  - rewrite E. destruct (Z.max_spec d y) as [[_ ->]|[_ ->]]; [right; now left|now left].
  - right. now right.
Qed.
Lemma zmin_list_in l : forall d, zmin_list d l = d \/ In (zmin_list d l) l.
Proof.
  unfold zmin_list. induction l as [|y l IH]; intros d; [now left|]. cbn. destruct (IH (Z.min d y)) as [E|I].
  - rewrite E. destruct (Z.min_spec d y) as [[_ ->]|[_ ->]]; [now left|right; now left].
  - right. now right.
Qed.

Lemma project_fold minx maxx miny maxy items :
  Forall (fun fb : plane * box => proper (snd fb) /\ facet_fits fb /\ minx <= bxl (snd fb) /\ bxu (snd fb) <= maxx /\ miny <= byl (snd fb) /\ byu (snd fb) <= maxy) items ->
  let npxx := maxx - minx + 1 in let npxy := maxy - miny + 1 in
  forall img0, exists img,
  fold_left (fun (acc : res (Z -> Z -> Qc)) (fb : plane * box) =>
          do! img <- acc;
          let f := fst fb in let r := snd fb in
          let xl := Z.max 0 (- minx + bxl r) in
          let xu := Z.min (- minx + bxu r + 1) npxx in
          let yl := Z.max 0 (- miny + byl r) in
          let yu := Z.min (- miny + byu r + 1) npxy in
          let fnx := xu - xl + 1 in let fny := yu - yl + 1 in
          if negb (Z.eqb (p_ny f) (fny - 1)) || negb (Z.eqb (p_nx f) (fnx - 1)) then Raise ValueError
          else Ok (fun y x => if Z.leb yl y && Z.ltb y yu && Z.leb xl x && Z.ltb x xu
                              then (img y x + p_at f (y - yl) (x - xl))%Qc else img y x))
          items (Ok img0) = Ok img /\
  forall y x, img (y - miny) (x - minx) = (img0 (y - miny)%Z (x - minx)%Z + qsum (map (fun fb => facet_at fb y x) items))%Qc.
Proof.
  intros F npxx npxy. induction F as [|[f r] items (P & (Fy & Fx) & Bx1 & Bx2 & By1 & By2) F IH]; intros img0.
  - exists img0. split; [reflexivity|]. intros y x. cbn. symmetry. apply Qcplus_0_r.
  - cbn [fst snd] in *. cbn [fold_left]. cbn [bind fst snd]. cbv zeta.
    destruct P as (Px & Py & _).
    replace (Z.max 0 (- minx + bxl r)) with (bxl r - minx) by lia.
    replace (Z.max 0 (- miny + byl r)) with (byl r - miny) by lia.
    replace (Z.min (- minx + bxu r + 1) npxx) with (bxu r - minx + 1) by (unfold npxx; lia).
    replace (Z.min (- miny + byu r + 1) npxy) with (byu r - miny + 1) by (unfold npxy; lia).
    destruct (Z.eqb_spec (p_ny f) (byu r - miny + 1 - (byl r - miny) + 1 - 1)); [|lia].
    destruct (Z.eqb_spec (p_nx f) (bxu r - minx + 1 - (bxl r - minx) + 1 - 1)); [|lia]. cbn [negb orb].
    match goal with |- context [fold_left _ items (Ok ?i)] => destruct (IH i) as (img & E & V) end.
    exists img. split; [exact E|]. intros y x. rewrite V. cbn [map qsum fold_right]. fold (qsum (map (fun fb => facet_at fb y x) items)).
    unfold facet_at at 2. cbn [fst snd].
    destruct (box_contains r x y) eqn:C.
    + apply box_contains_iff in C. destruct C as [C1 C2].
      destruct (Z.leb_spec (byl r - miny) (y - miny)); [|lia]. destruct (Z.ltb_spec (y - miny) (byu r - miny + 1)); [|lia].
      destruct (Z.leb_spec (bxl r - minx) (x - minx)); [|lia]. destruct (Z.ltb_spec (x - minx) (bxu r - minx + 1)); [|lia]. cbn [andb].
      replace (y - miny - (byl r - miny)) with (y - byl r) by lia. replace (x - minx - (bxl r - minx)) with (x - bxl r) by lia.
      symmetry. apply Qcplus_assoc.
    + assert (NB : ~ in_box r y x) by (intros B; apply box_contains_iff in B; congruence). unfold in_box in NB.
      destruct (Z.leb_spec (byl r - miny) (y - miny)); destruct (Z.ltb_spec (y - miny) (byu r - miny + 1));
      destruct (Z.leb_spec (bxl r - minx) (x - minx)); destruct (Z.ltb_spec (x - minx) (bxu r - minx + 1)); cbn [andb]; try lia;
      now rewrite Qcplus_0_l.
Qed.

Theorem project_regions_spec items : items <> [] -> Forall (fun fb : plane * box => proper (snd fb) /\ facet_fits fb) items ->
  exists f bb, project_regions items = Ok (Some (f, bb)) /\ proper bb /\ facet_fits (f, bb) /\
    (forall fb, In fb items -> box_inside (snd fb) bb) /\
    (exists fb, In fb items /\ bxl (snd fb) = bxl bb) /\ (exists fb, In fb items /\ bxu (snd fb) = bxu bb) /\
    (exists fb, In fb items /\ byl (snd fb) = byl bb) /\ (exists fb, In fb items /\ byu (snd fb) = byu bb) /\
    (forall y x, in_box bb y x ->
       p_at f (y - byl bb) (x - bxl bb) = qsum (map (fun fb => facet_at fb y x) items)) /\
    (forall p, In p (bmask bb) <-> (exists fb, In fb items /\ In p (bmask (snd fb))) /\ in_box bb (fst p) (snd p)).
Proof.
  intros NE F. destruct items as [|[f0 b0] items0]; [contradiction|]. clear NE.
  set (items := (f0, b0) :: items0) in *.
  unfold project_regions. unfold items at 1. set (bs := map snd items).
  set (minx := zmin_list (bxl b0) (map bxl bs)). set (maxx := list_max (bxu b0) (map bxu bs)).
  set (miny := zmin_list (byl b0) (map byl bs)). set (maxy := list_max (byu b0) (map byu bs)). cbv zeta.
  assert (BND : forall fb, In fb items -> minx <= bxl (snd fb) /\ bxu (snd fb) <= maxx /\ miny <= byl (snd fb) /\ byu (snd fb) <= maxy).
  { intros fb I. assert (Ib : In (snd fb) bs) by now apply in_map.
    repeat split; first [apply zmin_list_le|apply list_max_ge]; now apply in_map. }
  destruct (project_fold minx maxx miny maxy items) with (img0 := fun (_ _ : Z) => 0%Qc) as (img & E & V).
  { apply Forall_forall. intros fb I. rewrite Forall_forall in F. destruct (F fb I). destruct (BND fb I) as (? & ? & ? & ?). auto 10. }
  cbv zeta in E. rewrite E. cbn [bind].
  assert (I0 : In (f0, b0) items) by now left.
  pose proof (BND _ I0) as B0. cbn [snd] in B0. pose proof F as F'. rewrite Forall_forall in F'. destruct (F' _ I0) as [(P1 & P2 & _) _]. cbn [snd] in P1, P2.
  destruct (mk_box_ordered minx maxx miny maxy (flat_map bmask bs) ltac:(lia) ltac:(lia)) as (bb & Eb & Pb & E1 & E2 & E3 & E4 & Em & _).
  rewrite Eb. cbn [bind]. do 2 eexists. split; [reflexivity|]. split; [exact Pb|].
  rewrite E1, E2, E3, E4. split; [|split; [|split; [|split; [|split; [|split; [|split]]]]]].
  - unfold facet_fits. cbn [fst snd p_ny p_nx]. rewrite E1, E2, E3, E4. auto.
  - intros fb I y x [B1 B2]. destruct (BND fb I) as (? & ? & ? & ?). unfold in_box. rewrite E1, E2, E3, E4. lia.
  - destruct (zmin_list_in (map bxl bs) (bxl b0)) as [X|X]; [exists (f0, b0); auto|].
    apply in_map_iff in X. destruct X as (b & Eq & Ib). apply in_map_iff in Ib. destruct Ib as (fb & <- & Ifb). eauto.
  - destruct (list_max_in (map bxu bs) (bxu b0)) as [X|X]; [exists (f0, b0); auto|].
    apply in_map_iff in X. destruct X as (b & Eq & Ib). apply in_map_iff in Ib. destruct Ib as (fb & <- & Ifb). eauto.
  - destruct (zmin_list_in (map byl bs) (byl b0)) as [X|X]; [exists (f0, b0); auto|].
    apply in_map_iff in X. destruct X as (b & Eq & Ib). apply in_map_iff in Ib. destruct Ib as (fb & <- & Ifb). eauto.
  - destruct (list_max_in (map byu bs) (byu b0)) as [X|X]; [exists (f0, b0); auto|].
    apply in_map_iff in X. destruct X as (b & Eq & Ib). apply in_map_iff in Ib. destruct Ib as (fb & <- & Ifb). eauto.
  - intros y x _. cbn [p_at]. rewrite V. apply Qcplus_0_l.
  - intros p. rewrite Em, filter_In, in_ext_spec. unfold in_box. rewrite E1, E2, E3, E4. unfold bs. rewrite flat_map_concat_map, map_map, <- flat_map_concat_map, in_flat_map. reflexivity.
Qed.
Theorem project_regions_shape items : Forall (fun fb : plane * box => proper (snd fb)) items ->
  Exists (fun fb => ~ facet_fits fb) items -> project_regions items = Raise ValueError.
Proof.
  intros F X. destruct items as [|[f0 b0] items0]; [inversion X|].
  set (items := (f0, b0) :: items0) in *.
  unfold project_regions. unfold items at 1. set (bs := map snd items).
  set (minx := zmin_list (bxl b0) (map bxl bs)). set (maxx := list_max (bxu b0) (map bxu bs)).
  set (miny := zmin_list (byl b0) (map byl bs)). set (maxy := list_max (byu b0) (map byu bs)). cbv zeta.
  assert (BND : Forall (fun fb : plane * box => proper (snd fb) /\ minx <= bxl (snd fb) /\ bxu (snd fb) <= maxx /\ miny <= byl (snd fb) /\ byu (snd fb) <= maxy) items).
  { apply Forall_forall. intros fb I. assert (Ib : In (snd fb) bs) by now apply in_map. rewrite Forall_forall in F. split; [auto|].
    repeat split; first [apply zmin_list_le|apply list_max_ge]; now apply in_map. }
  match goal with |- context [fold_left ?g items ?a] => assert (G : fold_left g items a = Raise ValueError) end.
  { generalize (fun (_ _ : Z) => 0%Qc). clear F. clearbody minx maxx miny maxy. clear bs. revert X BND. generalize items. clear.
    induction items as [|[f r] items IH]; intros X F img0; [inversion X|].
    apply Forall_cons_iff in F. destruct F as [(P & B1 & B2 & B3 & B4) F]. cbn [fst snd] in *. cbn [fold_left bind fst snd]. cbv zeta.
    destruct P as (Px & Py & _).
    replace (Z.max 0 (- minx + bxl r)) with (bxl r - minx) by lia.
    replace (Z.max 0 (- miny + byl r)) with (byl r - miny) by lia.
    replace (Z.min (- minx + bxu r + 1) (maxx - minx + 1)) with (bxu r - minx + 1) by lia.
    replace (Z.min (- miny + byu r + 1) (maxy - miny + 1)) with (byu r - miny + 1) by lia.
    match goal with |- context [if ?c then Raise ValueError else _] => destruct c eqn:C end.
    - clear. induction items as [|a l IH]; [reflexivity|]. cbn [fold_left bind]. exact IH.
    - apply Exists_cons in X. destruct X as [X|X].
      + exfalso. apply X. apply orb_false_iff in C. destruct C as [C1 C2]. apply negb_false_iff in C1, C2. apply Z.eqb_eq in C1, C2.
        unfold facet_fits. cbn [fst snd]. lia.
      + apply IH; assumption. }
  rewrite G. reflexivity.
Qed.

(* ---------- extraction followed by projection ---------- *)
Lemma qsum_mul (l : list Qc) c : qsum (map (fun w => (c * w)%Qc) l) = (c * qsum l)%Qc.
Proof.
  induction l as [|a l IH]; [symmetry; apply Qcmult_0_r|]. cbn [map qsum fold_right].
  change (fold_right Qcplus 0%Qc (map (fun w => (c * w)%Qc) l)) with (qsum (map (fun w => (c * w)%Qc) l)).
  rewrite IH. unfold qsum. ring.
Qed.


Lemma combine_snd {A B} (fs : list A) : forall (bs : list B), length fs = length bs -> map snd (combine fs bs) = bs.
Proof. induction fs as [|f fs IH]; intros [|b bs] L; try discriminate L; cbn; [reflexivity|]. now rewrite IH by (injection L; auto). Qed.

Theorem extract_project d bs fs : bs <> [] ->
  Forall (fun b => proper b /\ mask_ok b /\ meets b d /\ lower_ok b d) bs -> facets_of d bs fs ->
  exists f bb, project_regions (combine fs bs) = Ok (Some (f, bb)) /\ proper bb /\
    (forall b, In b bs -> box_inside b bb) /\
    forall y x, in_box bb y x ->
      p_at f (y - byl bb) (x - bxl bb) = (qsum (map (fun b => box_weight b y x) bs) * img_at d y x)%Qc.
Proof.
  intros NE F FO.
  assert (LEN : length fs = length bs) by (clear -FO; induction FO; cbn; congruence).
  assert (ITEMS : Forall (fun fb : plane * box => proper (snd fb) /\ facet_fits fb) (combine fs bs) /\
    forall y x, map (fun fb => facet_at fb y x) (combine fs bs) = map (fun b => (img_at d y x * box_weight b y x)%Qc) bs).
  { clear NE LEN. induction FO as [|b f bs fs (ext & E) FO IH]; [split; [constructor|reflexivity]|].
    apply Forall_cons_iff in F. destruct F as [(P & M & ME & LO) F]. destruct (IH F) as [I1 I2].
    destruct (regional_data_spec b d 0%Qc P M ME LO) as (f' & E' & Fit & V). rewrite E in E'. injection E' as -> ->.
    cbn [combine]. split; [constructor; [cbn [snd]; auto|exact I1]|].
    intros y x. cbn [map]. rewrite I2. f_equal. unfold facet_at. cbn [fst snd].
    destruct (box_contains b x y) eqn:C.
    - apply box_contains_iff in C. rewrite V by exact C. f_equal. unfold Qc_eq_bool. destruct (Qc_eq_dec (box_weight b y x) 0); congruence.
    - unfold box_weight. rewrite weight_at_notin; [symmetry; apply Qcmult_0_r|]. intros I. destruct M as (_ & _ & M).
      specialize (M _ I). cbn [fst snd] in M. apply box_contains_iff in M. congruence. }
  destruct ITEMS as [I1 I2].
  assert (NEI : combine fs bs <> []) by (destruct bs, fs; try discriminate; contradiction).
  destruct (project_regions_spec (combine fs bs) NEI I1) as (f & bb & E & P & _ & IN & _ & _ & _ & _ & V & _).
  exists f, bb. split; [exact E|]. split; [exact P|]. split.
  - intros b Ib. rewrite <- (combine_snd fs bs LEN) in Ib. apply in_map_iff in Ib. destruct Ib as (fb & <- & Ifb). auto.
  - intros y x B. rewrite V by exact B. rewrite I2.
    rewrite <- (map_map (fun b => box_weight b y x) (fun w => (img_at d y x * w)%Qc)). rewrite qsum_mul. apply Qcmult_comm.
Qed.

(* normalise the masks of the boxes, extract, project *)

Theorem normalized_reconstruct d bs (only : bool) : flat_map bmask bs <> [] ->
  Forall (fun b => proper b /\ mask_ok b /\ meets b d /\ lower_ok b d /\ (forall p, In p (bmask b) -> 0 <= snd p)) bs ->
  (only = true -> forall b w, In b bs -> In w (bwts b) -> w = 1%Qc) ->
  exists out fs f bb, normalize_masks (map region_of bs) only = Ok out /\ facets_of d (with_weights bs out) fs /\
    project_regions (combine fs (with_weights bs out)) = Ok (Some (f, bb)) /\
    (forall b, In b bs -> box_inside b bb) /\
    forall y x, in_box bb y x ->
      ((exists b, In b bs /\ In (y, x) (bmask b)) -> p_at f (y - byl bb) (x - bxl bb) = img_at d y x) /\
      (~ (exists b, In b bs /\ In (y, x) (bmask b)) -> p_at f (y - byl bb) (x - bxl bb) = 0%Qc).
Proof.
  intros NE F U.
  assert (RO : Forall region_ok (map region_of bs)).
  { apply Forall_forall. intros r I. apply in_map_iff in I. destruct I as (b & <- & Ib). rewrite Forall_forall in F.
    destruct (F b Ib) as (_ & (N & L & _) & _ & _ & X). split; [exact N|]. split; [exact L|exact X]. }
  assert (NR : flat_map r_mask (map region_of bs) <> []).
  { rewrite flat_map_concat_map, map_map, <- flat_map_concat_map. exact NE. }
  assert (UR : only = true -> Forall unit_weights (map region_of bs)).
  { intros O. apply Forall_forall. intros r I. apply in_map_iff in I. destruct I as (b & <- & Ib). intros w Iw. exact (U O b w Ib Iw). }
  destruct (normalize_partition (map region_of bs) only RO NR UR) as (out & E & LO & S1 & S0).
  destruct (normalize_weights (map region_of bs) only RO NR UR) as (out' & E' & W). rewrite E in E'. injection E' as <-.
  exists out.
  assert (K : forall rs o, Forall2 (fun r r' => r_is_list r' = r_is_list r /\ r_mask r' = r_mask r /\ length (r_wts r') = length (r_wts r) /\
       forall p, In p (r_mask r) -> weight_at (r_mask r') (r_wts r') p = (1 / QcArith.Qc_of_nat (covering (map region_of bs) p))%Qc) rs o ->
     forall l, rs = map region_of l -> (forall b, In b l -> In b bs) ->
     Forall (fun b => proper b /\ mask_ok b /\ meets b d /\ lower_ok b d) (with_weights l o) /\
     (forall y x, map (fun b => box_weight b y x) (with_weights l o) = map (fun r' => weight_at (r_mask r') (r_wts r') (y, x)) o) /\
     (forall b, In b l -> exists b', In b' (with_weights l o) /\ bxl b' = bxl b /\ bxu b' = bxu b /\ byl b' = byl b /\ byu b' = byu b)).
  { induction 1 as [|r r' rs o (_ & M & L & _) W' IH]; intros l El IL.
    - destruct l; [|discriminate]. cbn. split; [constructor|]. split; [reflexivity|easy].
    - destruct l as [|b l]; [discriminate|]. injection El as -> El. destruct (IH l El (fun b I => IL b (or_intror I))) as (A1 & A2 & A3).
      rewrite Forall_forall in F. destruct (F b (IL b (or_introl eq_refl))) as (P & (N & Lb & IB) & ME & LOK & _). cbn [with_weights].
      split; [|split].
      + constructor; [|exact A1]. split; [exact P|]. split; [|split; [exact ME|exact LOK]].
        split; [exact N|]. split; [cbn [set_wts bwts bmask]; rewrite L; exact Lb|exact IB].
      + intros y x. cbn [map]. rewrite A2. f_equal. unfold box_weight. cbn [set_wts bmask bwts]. rewrite M. reflexivity.
      + intros c [<-|Ic]; [exists (set_wts b r'); split; [now left|]; repeat split|].
        destruct (A3 c Ic) as (c' & Ic' & X). exists c'. split; [now right|exact X]. }
  destruct (K _ _ W bs eq_refl (fun b I => I)) as (G1 & G2 & G3).
  assert (EX : forall l, Forall (fun b => proper b /\ mask_ok b /\ meets b d /\ lower_ok b d) l -> exists fs, facets_of d l fs).
  { induction 1 as [|b l (P & M & ME & LOK) Fl IH]; [exists []; constructor|]. destruct IH as (fs & FS).
    destruct (regional_data_spec b d 0%Qc P M ME LOK) as (f & Ef & _). exists (f :: fs). constructor; [eauto|exact FS]. }
  destruct (EX _ G1) as (fs & FS). exists fs.
  assert (NB : with_weights bs out <> []).
  { destruct bs as [|b bs']; [now contradiction NE|]. destruct out; [discriminate LO|]. discriminate. }
  destruct (extract_project d (with_weights bs out) fs NB G1 FS) as (f & bb & Ep & Pb & IN & V).
  exists f, bb. split; [exact E|]. split; [exact FS|]. split; [exact Ep|]. split.
  - intros b Ib y x B. destruct (G3 b Ib) as (b' & Ib' & X1 & X2 & X3 & X4). apply (IN b' Ib'). unfold in_box in *. now rewrite X1, X2, X3, X4.
  - intros y x B. rewrite V by exact B. rewrite G2. split; intros H.
    + rewrite S1; [apply Qcmult_1_l|]. destruct H as (b & Ib & Ip). exists (region_of b). split; [now apply in_map|exact Ip].
    + rewrite S0; [apply Qcmult_0_l|]. intros (r & Ir & Ip). apply H. apply in_map_iff in Ir. destruct Ir as (b & <- & Ib). exists b. auto.
Qed.

(* ---------- the mask cache ---------- *)
Lemma mask_sets {V} (full : V) vs : forall s, ms_cache s = None ->
  let s' := mask_run full s (map OSet vs) in ms_cache s' = None /\ ms_cur s' = last vs (ms_cur s).
Proof.
  unfold mask_run. induction vs as [|v vs IH]; intros s N; [split; [exact N|reflexivity]|].
  cbn [map fold_left]. destruct (IH (mask_step full s (OSet v)) N) as [A B]. split; [exact A|]. rewrite B.
  cbn [mask_step ms_cur]. destruct vs as [|w vs]; [reflexivity|]. cbn [last]. clear. revert w.
  induction vs as [|u vs IH]; intros w; [reflexivity|]. exact (IH u).
Qed.
Theorem mask_first_read {V} (full : V) s h vs :
  mask_read (mask_run full s (h ++ OInvalidate :: map OSet vs)) = last vs full.
Proof.
  unfold mask_run. rewrite fold_left_app. cbn [fold_left].
  match goal with |- context [fold_left _ _ (mask_step full ?t OInvalidate)] => destruct (mask_sets full vs (mask_step full t OInvalidate) eq_refl) as [A B] end.
  unfold mask_run in A, B. unfold mask_read. rewrite A, B. reflexivity.
Qed.
Theorem mask_first_read_weights {V} (full : V) s h v vs :
  mask_read (mask_run full s (h ++ OWeights v :: map OSet vs)) = last vs v.
Proof.
  unfold mask_run. rewrite fold_left_app. cbn [fold_left].
  match goal with |- context [fold_left _ _ (mask_step full ?t (OWeights v))] => destruct (mask_sets full vs (mask_step full t (OWeights v)) eq_refl) as [A B] end.
  unfold mask_run in A, B. unfold mask_read. rewrite A, B. reflexivity.
Qed.
Theorem mask_read_stable {V} (full : V) s (h : list (mask_op V)) : ~ In OInvalidate h -> (forall v, ~ In (OWeights v) h) ->
  mask_read (mask_run full (mask_step full s ORead) h) = mask_read s.
Proof.
  intros H W. unfold mask_run.
  assert (G : forall h t v, ~ In OInvalidate h -> (forall v, ~ In (OWeights v) h) -> ms_cache t = Some v -> ms_cache (fold_left (mask_step full) h t) = Some v).
  { clear. induction h as [|o h IH]; intros t v N W C; [exact C|]. cbn [fold_left].
    apply IH; [intros I; apply N; now right|intros w I; apply (W w); now right|].
    destruct o as [| | |w]; cbn; [exact C| |exfalso; apply N; now left|exfalso; apply (W w); now left]. unfold mask_read. now rewrite C. }
  unfold mask_read at 1. rewrite (G h (mask_step full s ORead) (mask_read s) H W eq_refl). reflexivity.
Qed.
