(* Boxes: splitting, padding, axis aligned boxes; hulls *)
From Coq Require Import QArith QArith.Qcanon ZArith Lia Znumtheory.
From Verif Require Import Prelude PreludeFacts GeomModel GeomSpec.
Close Scope Qc_scope. Close Scope Q_scope.
Open Scope Z_scope.

Lemma in_ext_spec xl xu yl yu p : in_ext xl xu yl yu p = true <-> xl <= snd p <= xu /\ yl <= fst p <= yu.
Proof. unfold in_ext. rewrite !andb_true_iff, !Z.leb_le. lia. Qed.

(* ---------- mk_box on ordered corners ---------- *)
Lemma mk_box_ordered xl xu yl yu m : xl < xu -> yl < yu ->
  exists b, mk_box xl xu yl yu (Some m) = Ok b /\ proper b /\ bxl b = xl /\ bxu b = xu /\ byl b = yl /\ byu b = yu /\
    bmask b = filter (in_ext xl xu yl yu) m /\ bwts b = map (fun _ => 1%Qc) (bmask b).
Proof.
  intros X Y. unfold mk_box.
  destruct (Z.eqb_spec xl xu); [lia|]. destruct (Z.eqb_spec yl yu); [lia|]. cbn [orb].
  eexists. split; [reflexivity|]. unfold proper. cbn.
  rewrite !Z.min_l, !Z.max_r by lia. repeat split; lia.
Qed.

Lemma zceil_spec w n : 0 < n -> (zceil w n - 1) * n < w <= zceil w n * n.
Proof.
  intros H. unfold zceil. pose proof (Z.div_mod (- w) n ltac:(lia)) as D.
  pose proof (Z.mod_pos_bound (- w) n H) as M. nia.
Qed.

Lemma splittable_ceil w n : (0 < n)%nat -> splittable w n ->
  let s := zceil w (Z.of_nat n) in 2 <= s /\ (Z.of_nat n - 1) * s + 1 < w <= Z.of_nat n * s.
Proof.
  intros Hn (t & T1 & T2) s. pose proof (zceil_spec w (Z.of_nat n) ltac:(lia)) as C. fold s in C.
  assert (s <= t) by nia.
  assert (B : (Z.of_nat n - 1) * s + 1 < w <= Z.of_nat n * s) by nia.
  split; [nia|exact B].
Qed.

Lemma mapM_seq {B} (f : nat -> res B) (P : nat -> B -> Prop) n : (forall k, (k < n)%nat -> exists b, f k = Ok b /\ P k b) ->
  forall a m, (a + m <= n)%nat ->
  exists bs, mapM f (seq a m) = Ok bs /\ length bs = m /\ forall k b, nth_error bs k = Some b -> P (a + k)%nat b.
Proof.
  intros H a m. revert a. induction m as [|m IH]; intros a L.
  - exists []. split; [reflexivity|]. split; [reflexivity|]. intros [|k] b E; discriminate.
  - destruct (H a ltac:(lia)) as (b & E & Pb). destruct (IH (S a) ltac:(lia)) as (bs & E2 & L2 & N).
    exists (b :: bs). cbn [seq mapM]. rewrite E. cbn [bind]. rewrite E2. cbn [bind].
    split; [reflexivity|]. split; [cbn; lia|]. intros [|k] c Ec; cbn in Ec.
    + injection Ec as <-. now rewrite Nat.add_0_r.
    + specialize (N k c Ec). now replace (a + S k)%nat with (S a + k)%nat by lia.
Qed.

(* the pieces along one axis *)
Lemma split_piece lo hi n i : (0 < n)%nat -> splittable (hi - lo + 1) n -> (i < n)%nat ->
  let s := zceil (hi - lo + 1) (Z.of_nat n) in
  split_lo lo s i < split_hi lo hi s n i /\ lo <= split_lo lo s i /\ split_hi lo hi s n i <= hi /\
  (split_hi lo hi s n i = hi \/ split_hi lo hi s n i = split_lo lo s (S i) - 1).
Proof.
  intros Hn Sp Hi s. destruct (splittable_ceil _ n Hn Sp) as [S2 B]. fold s in S2, B.
  unfold split_lo, split_hi. destruct (Nat.eqb_spec (S i) n) as [E|E].
  - subst n. assert (lo + Z.of_nat i * s < hi) by nia. rewrite Z.max_l by lia. repeat split; try lia; nia.
  - assert (Z.of_nat (S i) <= Z.of_nat n - 1) by lia. rewrite Nat2Z.inj_succ in *. repeat split; try nia.
Qed.

Lemma split_which lo hi n x : (0 < n)%nat -> splittable (hi - lo + 1) n -> lo <= x <= hi ->
  let s := zceil (hi - lo + 1) (Z.of_nat n) in
  exists i, (i < n)%nat /\ split_lo lo s i <= x <= split_hi lo hi s n i /\
    forall j, (j < n)%nat -> split_lo lo s j <= x <= split_hi lo hi s n j -> j = i.
Proof.
  intros Hn Sp Hx s. destruct (splittable_ceil _ n Hn Sp) as [S2 B]. fold s in S2, B.
  set (q := (x - lo) / s). pose proof (Z.div_mod (x - lo) s ltac:(lia)) as D. fold q in D.
  pose proof (Z.mod_pos_bound (x - lo) s ltac:(lia)) as M.
  assert (Q0 : 0 <= q) by (apply Z.div_pos; lia).
  assert (Qn : q < Z.of_nat n) by nia.
  exists (Z.to_nat q).
  assert (K : forall j, (j < n)%nat -> (split_lo lo s j <= x <= split_hi lo hi s n j <-> Z.of_nat j = q)).
  { intros j Hj. unfold split_lo, split_hi. destruct (Nat.eqb_spec (S j) n) as [E|E].
    - assert (EZ : Z.of_nat n = Z.of_nat j + 1) by lia.
      rewrite Z.max_l by lia. split; [intros [H1 _]; nia|intros <-; nia].
    - rewrite Nat2Z.inj_succ. split; [intros [H1 H2]; nia|intros <-; nia]. }
  split; [lia|]. split; [apply K; lia|]. intros j Hj Hb. apply K in Hb; [|exact Hj]. lia.
Qed.

Lemma split_box_pieces b n : proper b -> (0 < n)%nat ->
  splittable (bxu b - bxl b + 1) n -> splittable (byu b - byl b + 1) n ->
  let sx := zceil (bxu b - bxl b + 1) (Z.of_nat n) in
  let sy := zceil (byu b - byl b + 1) (Z.of_nat n) in
  exists bs, split_box b n = Ok bs /\ length bs = (n * n)%nat /\
    forall iy ix, (iy < n)%nat -> (ix < n)%nat ->
      let c := nth (iy * n + ix) bs no_box in
      proper c /\ bxl c = split_lo (bxl b) sx ix /\ bxu c = split_hi (bxl b) (bxu b) sx n ix /\
      byl c = split_lo (byl b) sy iy /\ byu c = split_hi (byl b) (byu b) sy n iy /\
      (forall p, In p (bmask c) <-> In p (bmask b) /\ in_box c (fst p) (snd p)) /\
      bwts c = map (fun _ => 1%Qc) (bmask c).
Proof.
  intros _ Hn HX HY sx sy. unfold split_box. destruct (Nat.ltb_spec n 1); [lia|]. fold sx sy.
  set (P := fun k c => proper c /\ bxl c = split_lo (bxl b) sx (k mod n) /\ bxu c = split_hi (bxl b) (bxu b) sx n (k mod n) /\
      byl c = split_lo (byl b) sy (k / n) /\ byu c = split_hi (byl b) (byu b) sy n (k / n) /\
      (forall p, In p (bmask c) <-> In p (bmask b) /\ in_box c (fst p) (snd p)) /\
      bwts c = map (fun _ => 1%Qc) (bmask c)).
  match goal with |- context [mapM ?f (seq 0 (n * n))] => destruct (mapM_seq f P (n * n)) with (a := 0%nat) (m := (n * n)%nat) as (bs & E & L & N) end.
  - intros k Hk. assert (Hm : (k mod n < n)%nat) by (apply Nat.mod_upper_bound; lia).
    assert (Hd : (k / n < n)%nat) by (apply Nat.div_lt_upper_bound; lia).
    destruct (split_piece (bxl b) (bxu b) n _ Hn HX Hm) as (X & _ & _). fold sx in X.
    destruct (split_piece (byl b) (byu b) n _ Hn HY Hd) as (Y & _ & _). fold sy in Y.
    destruct (mk_box_ordered _ _ _ _ (bmask b) X Y) as (c & Ec & Pc & E1 & E2 & E3 & E4 & Em & Ew).
    exists c. split; [exact Ec|]. unfold P. repeat (split; [assumption|]). split; [|exact Ew].
    intros p. rewrite Em, filter_In, in_ext_spec. unfold in_box. rewrite E1, E2, E3, E4. reflexivity.
  - lia.
  - exists bs. split; [exact E|]. split; [exact L|]. intros iy ix Hy Hx. set (c := nth (iy * n + ix) bs no_box).
    assert (LT : (iy * n + ix < length bs)%nat) by nia.
    specialize (N _ c (nth_error_nth' _ no_box LT)). unfold P in N. cbn [Nat.add] in N.
    replace ((iy * n + ix) mod n)%nat with ix in N by (rewrite Nat.add_comm, Nat.mod_add, Nat.mod_small by lia; reflexivity).
    replace ((iy * n + ix) / n)%nat with iy in N by (rewrite Nat.add_comm, Nat.div_add, Nat.div_small by lia; reflexivity).
    exact N.
Qed.

Lemma split_index n k : (k < n * n)%nat -> exists iy ix, (iy < n)%nat /\ (ix < n)%nat /\ k = (iy * n + ix)%nat.
Proof.
  intros H. assert (0 < n)%nat by nia. exists (k / n)%nat, (k mod n)%nat.
  split; [apply Nat.div_lt_upper_bound; lia|]. split; [apply Nat.mod_upper_bound; lia|].
  rewrite Nat.mul_comm. apply Nat.div_mod. lia.
Qed.

Theorem split_box_tiles b n : proper b -> (0 < n)%nat ->
  splittable (bxu b - bxl b + 1) n -> splittable (byu b - byl b + 1) n ->
  exists bs, split_box b n = Ok bs /\ length bs = (n * n)%nat /\
    (forall k, (k < n * n)%nat -> proper (nth k bs no_box) /\ box_inside (nth k bs no_box) b) /\
    (forall y x, in_box b y x -> exists k, (k < n * n)%nat /\ in_box (nth k bs no_box) y x /\
       forall j, (j < n * n)%nat -> in_box (nth j bs no_box) y x -> j = k) /\
    (forall k p, (k < n * n)%nat -> In p (bmask (nth k bs no_box)) <-> In p (bmask b) /\ in_box (nth k bs no_box) (fst p) (snd p)) /\
    (forall k w, (k < n * n)%nat -> In w (bwts (nth k bs no_box)) -> w = 1%Qc).
Proof.
  intros Pb Hn HX HY. destruct (split_box_pieces b n Pb Hn HX HY) as (bs & E & L & N).
  exists bs. split; [exact E|]. split; [exact L|]. split; [|split; [|split]].
  - intros k Hk. destruct (split_index n k Hk) as (iy & ix & Hy & Hx & ->).
    destruct (N iy ix Hy Hx) as (Pc & E1 & E2 & E3 & E4 & _). split; [exact Pc|].
    intros y x [Bx By]. destruct (split_piece _ _ n ix Hn HX Hx) as (_ & X1 & X2 & _).
    destruct (split_piece _ _ n iy Hn HY Hy) as (_ & Y1 & Y2 & _). unfold in_box. lia.
  - intros y x [Bx By]. destruct (split_which _ _ n x Hn HX Bx) as (ix & Hx & Wx & Ux).
    destruct (split_which _ _ n y Hn HY By) as (iy & Hy & Wy & Uy).
    exists (iy * n + ix)%nat. split; [nia|]. destruct (N iy ix Hy Hx) as (_ & E1 & E2 & E3 & E4 & _).
    split; [unfold in_box; rewrite E1, E2, E3, E4; auto|].
    intros j Hj Bj. destruct (split_index n j Hj) as (jy & jx & Hjy & Hjx & ->).
    destruct (N jy jx Hjy Hjx) as (_ & F1 & F2 & F3 & F4 & _). unfold in_box in Bj. rewrite F1, F2, F3, F4 in Bj.
    rewrite (Ux jx Hjx (proj1 Bj)), (Uy jy Hjy (proj2 Bj)). reflexivity.
  - intros k p Hk. destruct (split_index n k Hk) as (iy & ix & Hy & Hx & ->).
    destruct (N iy ix Hy Hx) as (_ & _ & _ & _ & _ & M & _). apply M.
  - intros k w Hk. destruct (split_index n k Hk) as (iy & ix & Hy & Hx & ->).
    destruct (N iy ix Hy Hx) as (_ & _ & _ & _ & _ & _ & W). rewrite W. intros I. apply in_map_iff in I.
    now destruct I as (? & <- & _).
Qed.

(* the pieces come in rows of increasing y, each row in increasing x, with no gaps *)
Theorem split_box_row_major b n bs : proper b -> (0 < n)%nat ->
  splittable (bxu b - bxl b + 1) n -> splittable (byu b - byl b + 1) n ->
  split_box b n = Ok bs ->
  (forall iy ix, (iy < n)%nat -> (S ix < n)%nat ->
     let c := nth (iy * n + ix) bs no_box in let d := nth (iy * n + S ix) bs no_box in
     bxl d = bxu c + 1 /\ byl d = byl c /\ byu d = byu c) /\
  (forall iy ix, (S iy < n)%nat -> (ix < n)%nat ->
     let c := nth (iy * n + ix) bs no_box in let d := nth (S iy * n + ix) bs no_box in
     byl d = byu c + 1 /\ bxl d = bxl c /\ bxu d = bxu c).
Proof.
  intros Pb Hn HX HY E0. destruct (split_box_pieces b n Pb Hn HX HY) as (bs' & E & L & N).
  rewrite E in E0. injection E0 as ->.
  assert (A : forall lo hi s i, (S i < n)%nat -> split_lo lo s (S i) = split_hi lo hi s n i + 1).
  { intros lo hi s i H. unfold split_lo, split_hi. destruct (Nat.eqb_spec (S i) n); [lia|]. lia. }
  split; intros iy ix Hy Hx c d.
  - destruct (N iy ix ltac:(lia) ltac:(lia)) as (_ & E1 & E2 & E3 & E4 & _).
    destruct (N iy (S ix) ltac:(lia) ltac:(lia)) as (_ & F1 & F2 & F3 & F4 & _). fold c in E1, E2, E3, E4. fold d in F1, F2, F3, F4.
    rewrite F1, F3, F4, E2, E3, E4. split; [apply A; lia|auto].
  - destruct (N iy ix ltac:(lia) ltac:(lia)) as (_ & E1 & E2 & E3 & E4 & _).
    destruct (N (S iy) ix ltac:(lia) ltac:(lia)) as (_ & F1 & F2 & F3 & F4 & _). fold c in E1, E2, E3, E4. fold d in F1, F2, F3, F4.
    rewrite F1, F2, F3, E1, E2, E4. split; [apply A; lia|auto].
Qed.

(* ---------- PadBox ---------- *)
(* padding an axis drops its last pixel *)
Lemma pad_axis lo hi d : lo < hi -> hi - lo + 1 <= d ->
  let c := Z.quot (lo + hi) 2 in
  let l := c - d / 2 in let u := c + (d - d / 2 - 1) in
  u - l + 1 = d /\ l <= lo /\ hi - 1 <= u /\ Z.abs ((l + u) - (lo + hi)) <= 2 /\
  (hi <= u <-> ~ (d = hi - lo + 1 /\ (hi - lo + 1) mod 2 = 0 /\ 0 < lo + hi)).
Proof.
  intros H D c l u.
  assert (Q : (0 <= lo + hi /\ 2 * c = lo + hi - (lo + hi) mod 2) \/ (lo + hi < 0 /\ 2 * c = lo + hi + (lo + hi) mod 2)).
  { destruct (Z.le_gt_cases 0 (lo + hi)) as [P|P]; [left|right]; (split; [exact P|]); unfold c.
    - rewrite Z.quot_div_nonneg by lia. pose proof (Z.div_mod (lo + hi) 2). lia.
    - replace (lo + hi) with (- (- (lo + hi))) at 1 by lia. rewrite Z.quot_opp_l by lia. rewrite Z.quot_div_nonneg by lia.
      pose proof (Z.div_mod (- (lo + hi)) 2 ltac:(lia)).
      pose proof (Z.mod_pos_bound (- (lo + hi)) 2 ltac:(lia)). pose proof (Z.mod_pos_bound (lo + hi) 2 ltac:(lia)).
      pose proof (Z.div_mod (lo + hi) 2 ltac:(lia)). lia. }
  pose proof (Z.div_mod d 2 ltac:(lia)) as Dd. pose proof (Z.mod_pos_bound d 2 ltac:(lia)) as Md.
  pose proof (Z.div_mod (lo + hi) 2 ltac:(lia)) as Ds. pose proof (Z.mod_pos_bound (lo + hi) 2 ltac:(lia)) as Ms.
  pose proof (Z.div_mod (hi - lo + 1) 2 ltac:(lia)) as Dn. pose proof (Z.mod_pos_bound (hi - lo + 1) 2 ltac:(lia)) as Mn.
  subst l u. repeat split; try lia.
Qed.


Theorem pad_box_spec b dnx dny : proper b -> bxu b - bxl b + 1 <= dnx -> byu b - byl b + 1 <= dny ->
  exists p, pad_box b dnx dny = Ok p /\ proper p /\ bnx p = dnx /\ bny p = dny /\
    Z.abs ((bxl p + bxu p) - (bxl b + bxu b)) <= 2 /\ Z.abs ((byl p + byu p) - (byl b + byu b)) <= 2 /\
    (forall q, In q (bmask p) <-> In q (bmask b) /\ in_box p (fst q) (snd q)) /\
    (forall y x, in_box b y x -> y < byu b -> x < bxu b -> in_box p y x) /\
    (box_inside b p <-> keeps (bxl b) (bxu b) dnx /\ keeps (byl b) (byu b) dny).
Proof.
  intros (Hx & Hy & Nx & Ny) Dx Dy. unfold pad_box.
  destruct (Z.ltb_spec (dnx - bnx b) 0); [lia|]. destruct (Z.ltb_spec (dny - bny b) 0); [lia|]. cbn [orb box_centre].
  destruct (pad_axis _ _ dnx Hx Dx) as (X1 & X2 & X3 & X4 & X5).
  destruct (pad_axis _ _ dny Hy Dy) as (Y1 & Y2 & Y3 & Y4 & Y5).
  set (xl := (bxl b + bxu b) ÷ 2 - dnx / 2) in *. set (xu := (bxl b + bxu b) ÷ 2 + (dnx - dnx / 2 - 1)) in *.
  set (yl := (byl b + byu b) ÷ 2 - dny / 2) in *. set (yu := (byl b + byu b) ÷ 2 + (dny - dny / 2 - 1)) in *.
  destruct (mk_box_ordered xl xu yl yu (bmask b) ltac:(lia) ltac:(lia)) as (p & E & Pp & E1 & E2 & E3 & E4 & Em & _).
  exists p. split; [exact E|]. split; [exact Pp|]. destruct Pp as (_ & _ & P3 & P4).
  rewrite P3, P4, E1, E2, E3, E4. split; [lia|]. split; [lia|]. split; [lia|]. split; [lia|]. split; [|split].
  - intros q. rewrite Em, filter_In, in_ext_spec. unfold in_box. rewrite E1, E2, E3, E4. reflexivity.
  - intros y x [B1 B2] Hy1 Hx1. unfold in_box. rewrite E1, E2, E3, E4. lia.
  - unfold keeps. rewrite <- X5, <- Y5. unfold box_inside, in_box. rewrite E1, E2, E3, E4. split.
    + intros I. specialize (I (byu b) (bxu b) ltac:(lia)). lia.
    + intros [I1 I2] y x B. lia.
Qed.
Theorem pad_box_too_small b dnx dny : dnx < bnx b \/ dny < bny b -> pad_box b dnx dny = Raise ValueError.
Proof.
  intros H. unfold pad_box. destruct (Z.ltb_spec (dnx - bnx b) 0); [reflexivity|].
  destruct (Z.ltb_spec (dny - bny b) 0); [reflexivity|lia].
Qed.

(* ---------- AxisAlignedBoundingBox ---------- *)
Lemma odd_up a : (a + a mod 2) mod 2 = 0.
Proof. pose proof (Z.div_mod a 2 ltac:(lia)). pose proof (Z.mod_pos_bound a 2 ltac:(lia)).
  replace (a + a mod 2) with (0 + (a / 2 + a mod 2) * 2) by lia. rewrite Z.mod_add by lia. reflexivity. Qed.

Theorem axis_aligned_rect xl xu yl yu cx cy mask odd : xl < xu -> yl < yu ->
  exists b, axis_aligned xl xu yl yu cx cy mask false odd = Ok b /\ proper b /\
    (forall y x, xl <= x <= xu -> yl <= y <= yu -> in_box b y x) /\
    bxl b = xl /\ byl b = yl /\ bxu b <= xu + 1 /\ byu b <= yu + 1 /\
    (odd = true -> bnx b mod 2 = 1 /\ bny b mod 2 = 1) /\
    (odd = false -> bxu b = xu /\ byu b = yu) /\
    (forall p, In p (bmask b) <-> In p mask /\ in_box b (fst p) (snd p)).
Proof.
  intros X Y. unfold axis_aligned.
  set (ex := if odd then (xu - xl) mod 2 else 0). set (ey := if odd then (yu - yl) mod 2 else 0).
  assert (Ex : 0 <= ex <= 1) by (unfold ex; destruct odd; [pose proof (Z.mod_pos_bound (xu - xl) 2); lia|lia]).
  assert (Ey : 0 <= ey <= 1) by (unfold ey; destruct odd; [pose proof (Z.mod_pos_bound (yu - yl) 2); lia|lia]).
  destruct (mk_box_ordered xl (xu + ex) yl (yu + ey) mask ltac:(lia) ltac:(lia)) as (b & E & Pb & E1 & E2 & E3 & E4 & Em & _).
  exists b. split; [exact E|]. split; [exact Pb|]. destruct Pb as (_ & _ & P3 & P4). unfold in_box. rewrite P3, P4, Em, E1, E2, E3, E4.
  split; [lia|]. split; [reflexivity|]. split; [reflexivity|]. split; [lia|]. split; [lia|]. split; [|split].
  - intros ->. unfold ex, ey. split.
    + replace (xu + (xu - xl) mod 2 - xl + 1) with (1 + ((xu - xl) + (xu - xl) mod 2)) by lia.
      rewrite Zplus_mod, odd_up. reflexivity.
    + replace (yu + (yu - yl) mod 2 - yl + 1) with (1 + ((yu - yl) + (yu - yl) mod 2)) by lia.
      rewrite Zplus_mod, odd_up. reflexivity.
  - intros ->. unfold ex, ey. lia.
  - intros p. rewrite filter_In, in_ext_spec. reflexivity.
Qed.

Lemma square_axis lo hi d : lo < hi -> hi - lo + 1 <= d ->
  let c := Z.quot (lo + hi) 2 in
  let l := c - d / 2 in let u := c + d - d / 2 - 1 in
  let u' := u + (u - l) mod 2 in
  l <= lo /\ hi <= u' /\ l < u' /\ (u' - l + 1) mod 2 = 1 /\ u' - l + 1 = d + (d - 1) mod 2.
Proof.
  intros H D c l u u'. destruct (pad_axis lo hi d H D) as (A1 & A2 & A3 & A4 & A5).
  fold c in A1, A2, A3, A4, A5. fold l in A1, A2, A4.
  replace (c + (d - d / 2 - 1)) with u in * by (unfold u; lia).
  pose proof (Z.mod_pos_bound (u - l) 2 ltac:(lia)).
  assert (EL : (u - l) mod 2 = (d - 1) mod 2) by (f_equal; lia).
  split; [lia|]. split.
  - destruct (Z.le_gt_cases hi u); [lia|].
    assert (N : ~ hi <= u) by lia. assert (W : d = hi - lo + 1 /\ (hi - lo + 1) mod 2 = 0 /\ 0 < lo + hi).
    { destruct (Z.eq_dec d (hi - lo + 1)); [|exfalso; apply N, A5; lia].
      destruct (Z.eq_dec ((hi - lo + 1) mod 2) 0); [|exfalso; apply N, A5; lia].
      destruct (Z.lt_ge_cases 0 (lo + hi)); [lia|exfalso; apply N, A5; lia]. }
    destruct W as (W1 & W2 & _). unfold u'. rewrite EL, W1.
    pose proof (Z.div_mod (hi - lo + 1) 2 ltac:(lia)).
    assert ((hi - lo + 1 - 1) mod 2 = 1).
    { replace (hi - lo + 1 - 1) with (1 + ((hi - lo + 1) / 2 - 1) * 2) by lia. rewrite Z.mod_add by lia. reflexivity. }
    lia.
  - split; [unfold u'; lia|]. split; [|unfold u'; lia].
    unfold u'. replace (u + (u - l) mod 2 - l + 1) with (1 + ((u - l) + (u - l) mod 2)) by lia.
    rewrite Zplus_mod, odd_up. reflexivity.
Qed.

(* a square box of odd size around a box *)
Theorem axis_aligned_square b : proper b ->
  exists c, axis_aligned (bxl b) (bxu b) (byl b) (byu b) (fst (box_centre b)) (snd (box_centre b)) (bmask b) true true = Ok c /\
    proper c /\ box_inside b c /\ bnx c = bny c /\ bnx c mod 2 = 1 /\
    bnx c <= Z.max (bnx b) (bny b) + 1 /\
    (forall p, In p (bmask c) <-> In p (bmask b) /\ in_box c (fst p) (snd p)).
Proof.
  intros (Hx & Hy & Nx & Ny). unfold axis_aligned, box_centre. cbn [fst snd].
  set (d := Z.max (bxu b - bxl b + 1) (byu b - byl b + 1)).
  destruct (square_axis _ _ d Hx ltac:(unfold d; lia)) as (X1 & X2 & X3 & X4 & X5).
  destruct (square_axis _ _ d Hy ltac:(unfold d; lia)) as (Y1 & Y2 & Y3 & Y4 & Y5).
  match goal with |- context [mk_box ?a ?e ?f ?g (Some ?m)] => destruct (mk_box_ordered a e f g m ltac:(lia) ltac:(lia)) as (c & E & Pc & E1 & E2 & E3 & E4 & Em & _) end.
  exists c. split; [exact E|]. split; [exact Pc|]. destruct Pc as (_ & _ & P3 & P4).
  unfold box_inside, in_box. rewrite P3, P4, E1, E2, E3, E4. split; [intros; lia|]. split; [lia|]. split; [lia|].
  split; [pose proof (Z.mod_pos_bound (d - 1) 2 ltac:(lia)); lia|].
  intros p. rewrite Em, filter_In, in_ext_spec. reflexivity.
Qed.

(* ---------- hulls ---------- *)
Lemma combine_normals c left nc : In nc (combine (normals left c) c) <->
  exists i, (i < length c)%nat /\ snd nc = nth i c (0, 0) /\
    fst nc = (let e := (fst (next_corner c i) - fst (nth i c (0, 0)), snd (next_corner c i) - snd (nth i c (0, 0))) in
              if left then (- snd e, fst e) else (snd e, - fst e)).
Proof.
  assert (LN : length (normals left c) = length c) by (unfold normals; now rewrite map_length, seq_length).
  split.
  - intros I. apply In_nth with (d := ((0, 0), (0, 0))) in I. destruct I as (i & Hi & E).
    rewrite combine_length, LN, Nat.min_id in Hi. rewrite combine_nth in E by exact LN.
    exists i. split; [exact Hi|]. rewrite <- E. cbn [fst snd]. split; [reflexivity|].
    unfold normals. erewrite nth_indep by (rewrite map_length, seq_length; exact Hi).
    rewrite map_nth with (d := 0%nat). now rewrite seq_nth.
  - intros (i & Hi & E1 & E2). destruct nc as [n s]. cbn [fst snd] in *. subst.
    assert (I : nth i (combine (normals left c) c) ((0, 0), (0, 0)) = (nth i (normals left c) (0, 0), nth i c (0, 0))) by (apply combine_nth; exact LN).
    unfold normals in I at 2. erewrite (nth_indep (map _ _)) in I by (rewrite map_length, seq_length; exact Hi).
    rewrite map_nth with (d := 0%nat), seq_nth in I by exact Hi. cbn [Nat.add] in I. cbv zeta in I |- *.
    match type of I with _ = ?r => match goal with |- In ?g _ => change g with r end end. rewrite <- I.
    apply nth_In. rewrite combine_length, LN, Nat.min_id. exact Hi.
Qed.

Lemma nth_error_nth_pt (c : list pt) i : (i < length c)%nat -> nth_error c i = Some (nth i c (0, 0)).
Proof. intros H. now apply nth_error_nth'. Qed.

Theorem hull_contains_spec c s : hull_contains c s = true <-> forall p q, is_edge c p q -> right_or_on p q s.
Proof.
  unfold hull_contains. rewrite forallb_forall. split.
  - intros H p q (i & Hi & Ep & Eq).
    assert (Ei : nth i c (0, 0) = p) by (now apply nth_error_nth).
    assert (Ej : next_corner c i = q) by (unfold next_corner; now apply nth_error_nth).
    specialize (H ((snd q - snd p, - (fst q - fst p)), p)). cbn [fst snd] in H. unfold dotz in H. cbn [fst snd] in H.
    assert (I : In ((snd q - snd p, - (fst q - fst p)), p) (combine (normals false c) c)).
    { apply combine_normals. exists i. rewrite Ei, Ej. cbn. auto. }
    specialize (H I). apply Z.ltb_lt in H. unfold right_or_on. lia.
  - intros H nc I. apply combine_normals in I. destruct I as (i & Hi & E1 & E2). rewrite E1, E2. cbn [fst snd].
    unfold dotz. cbn [fst snd]. apply Z.ltb_lt.
    assert (J : ((i + 1) mod length c < length c)%nat) by (apply Nat.mod_upper_bound; lia).
    specialize (H (nth i c (0, 0)) (next_corner c i)).
    assert (K : right_or_on (nth i c (0, 0)) (next_corner c i) s).
    { apply H. exists i. split; [exact Hi|]. split; [now apply nth_error_nth_pt|]. now apply nth_error_nth_pt. }
    unfold right_or_on in K. lia.
Qed.

(* membership is convex *)
Theorem hull_contains_convex c a b s : hull_contains c a = true -> hull_contains c b = true ->
  on_segment a b s -> hull_contains c s = true.
Proof.
  rewrite !hull_contains_spec. intros Ha Hb (k & m & K & M & KM & EX & EY) p q E.
  specialize (Ha p q E). specialize (Hb p q E). unfold right_or_on in *.
  assert (X : (k + m) * ((fst q - fst p) * (snd s - snd p) - (snd q - snd p) * (fst s - fst p)) <= 0).
  { replace ((k + m) * ((fst q - fst p) * (snd s - snd p) - (snd q - snd p) * (fst s - fst p)))
      with ((fst q - fst p) * ((k + m) * snd s - (k + m) * snd p) - (snd q - snd p) * ((k + m) * fst s - (k + m) * fst p)) by ring.
    rewrite EX, EY.
    replace ((fst q - fst p) * (k * snd a + m * snd b - (k + m) * snd p) - (snd q - snd p) * (k * fst a + m * fst b - (k + m) * fst p))
      with (k * ((fst q - fst p) * (snd a - snd p) - (snd q - snd p) * (fst a - fst p)) +
            m * ((fst q - fst p) * (snd b - snd p) - (snd q - snd p) * (fst b - fst p))) by ring. nia. }
  nia.
Qed.

Lemma list_max_ge l : forall d x, In x l -> x <= list_max d l.
Proof.
  unfold list_max. induction l as [|y l IH]; intros d x I; [easy|]. cbn.
  assert (A : forall l d, d <= fold_left Z.max l d).
  { clear. induction l as [|z l IH]; intros d; cbn; [lia|]. specialize (IH (Z.max d z)). lia. }
  destruct I as [->|I]; [|now apply IH]. specialize (A l (Z.max d x)). lia.
Qed.
Lemma zmin_list_le l : forall d x, In x l -> zmin_list d l <= x.
Proof.
  unfold zmin_list. induction l as [|y l IH]; intros d x I; [easy|]. cbn.
  assert (A : forall l d, fold_left Z.min l d <= d).
  { clear. induction l as [|z l IH]; intros d; cbn; [lia|]. specialize (IH (Z.min d z)). lia. }
  destruct I as [->|I]; [|now apply IH]. specialize (A l (Z.min d x)). lia.
Qed.

Lemma comb_dot n : forall w c, length w = length c ->
  dotz (comb w c) n = zsum (map (fun kc : Z * pt => fst kc * dotz (snd kc) n) (combine w c)).
Proof.
  induction w as [|k w IH]; intros [|p c] L; try discriminate L; [reflexivity|].
  cbn [comb combine map zsum fold_right]. injection L as L. fold (zsum (map (fun kc : Z * pt => fst kc * dotz (snd kc) n) (combine w c))).
  rewrite <- IH by exact L. unfold dotz. cbn [fst snd]. ring.
Qed.
Lemma wsum_le n M : forall w c, length w = length c -> (forall k, In k w -> 0 <= k) -> (forall p, In p c -> dotz p n <= M) ->
  zsum (map (fun kc : Z * pt => fst kc * dotz (snd kc) n) (combine w c)) <= zsum w * M.
Proof.
  induction w as [|k w IH]; intros [|p c] L P B; try discriminate L; [cbn; lia|].
  cbn [combine map zsum fold_right]. fold (zsum w) (zsum (map (fun kc : Z * pt => fst kc * dotz (snd kc) n) (combine w c))).
  injection L as L. specialize (IH c L (fun k I => P k (or_intror I)) (fun p I => B p (or_intror I))).
  specialize (P k (or_introl eq_refl)). specialize (B p (or_introl eq_refl)). cbn [fst snd]. nia.
Qed.
Lemma wsum_ge n M : forall w c, length w = length c -> (forall k, In k w -> 0 <= k) -> (forall p, In p c -> M <= dotz p n) ->
  zsum w * M <= zsum (map (fun kc : Z * pt => fst kc * dotz (snd kc) n) (combine w c)).
Proof.
  induction w as [|k w IH]; intros [|p c] L P B; try discriminate L; [cbn; lia|].
  cbn [combine map zsum fold_right]. fold (zsum w) (zsum (map (fun kc : Z * pt => fst kc * dotz (snd kc) n) (combine w c))).
  injection L as L. specialize (IH c L (fun k I => P k (or_intror I)) (fun p I => B p (or_intror I))).
  specialize (P k (or_introl eq_refl)). specialize (B p (or_introl eq_refl)). cbn [fst snd]. nia.
Qed.

Lemma separated c1 c2 n : proj_max c1 n < proj_min c2 n -> ~ hulls_meet c1 c2.
Proof.
  intros S (w1 & w2 & L1 & L2 & P1 & P2 & W & EW & EC).
  assert (A : zsum (map (fun kc : Z * pt => fst kc * dotz (snd kc) n) (combine w1 c1)) <= zsum w1 * proj_max c1 n).
  { apply wsum_le; auto. intros p I. apply list_max_ge. now apply (in_map (fun v => dotz v n)). }
  assert (B : zsum w2 * proj_min c2 n <= zsum (map (fun kc : Z * pt => fst kc * dotz (snd kc) n) (combine w2 c2))).
  { apply wsum_ge; auto. intros p I. apply zmin_list_le. now apply (in_map (fun v => dotz v n)). }
  rewrite <- comb_dot in A, B by assumption. rewrite EC in A. rewrite EW in *. nia.
Qed.

Lemma hulls_meet_sym c1 c2 : hulls_meet c1 c2 -> hulls_meet c2 c1.
Proof. intros (w1 & w2 & L1 & L2 & P1 & P2 & W & EW & EC). exists w2, w1. repeat split; auto; lia. Qed.

Lemma forallb_false_ex {A} (f : A -> bool) l : forallb f l = false -> exists n, In n l /\ f n = false.
Proof.
  induction l as [|a l IH]; [discriminate|]. cbn. destruct (f a) eqn:Fa.
  - intros H. destruct (IH H) as (n & I & E). exists n. split; [now right|exact E].
  - intros _. exists a. split; [now left|exact Fa].
Qed.

(* reported as not overlapping: the hulls share no point *)
Theorem overlaps_false_sound c1 c2 : overlaps_with c1 c2 = false -> ~ hulls_meet c1 c2.
Proof.
  unfold overlaps_with. intros H.
  apply forallb_false_ex in H. destruct H as (n & _ & F).
  apply negb_false_iff, orb_true_iff in F. unfold far in F.
  destruct F as [F|F]; apply andb_true_iff in F; destruct F as [F _]; apply Z.ltb_lt in F.
  - apply (separated c1 c2 n). lia.
  - intros M. apply (separated c2 c1 n); [lia|]. now apply hulls_meet_sym.
Qed.
