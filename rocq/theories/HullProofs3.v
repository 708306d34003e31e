(* Masks of hulls, normals, midpoints and centres *)
From Coq Require Import QArith Qround Reals Lra Lia.
From Verif Require Import Prelude GeomModel GeomSpec GeomProofs HullModel HullSpec HullProofs HullProofs2.
Close Scope Q_scope.
Open Scope R_scope.

(* ---------- a point inside a solid polygon lies between its corners ---------- *)
Lemma rsum_zero l : (forall x, In x l -> 0 <= x) -> rsum l = 0 -> forall x, In x l -> x = 0.
Proof.
  assert (P : forall l, (forall x, In x l -> 0 <= x) -> 0 <= rsum l).
  { clear. induction l as [|a l IH]; intros H; [unfold rsum; cbn; lra|]. rewrite rsum_cons.
    specialize (IH (fun x I => H x (or_intror I))). specialize (H a (or_introl eq_refl)). lra. }
  induction l as [|a l IH]; intros H E x I; [destruct I|]. rewrite rsum_cons in E.
  pose proof (P l (fun x I => H x (or_intror I))). pose proof (H a (or_introl eq_refl)).
  destruct I as [<-|I]; [lra|]. apply IH; [intros; apply H; now right|lra|exact I].
Qed.
Lemma around_zero f c : (forall p q, is_edge c p q -> 0 <= f p q) -> around f c = 0 -> forall p q, is_edge c p q -> f p q = 0.
Proof.
  intros H E p q I. rewrite <- around_edges in E.
  apply (rsum_zero _) with (x := f p q) in E; [exact E| |].
  - intros x J. apply in_map_iff in J. destruct J as ([u v] & <- & J). apply H, edges_is_edge, J.
  - apply in_map_iff. exists (p, q). split; [reflexivity|]. apply edges_is_edge, I.
Qed.
Lemma edges_const (h : pt -> R) c : (forall p q, is_edge c p q -> h p = h q) -> forall p q, In p c -> In q c -> h p = h q.
Proof.
  intros H.
  assert (G : forall i, (i < length c)%nat -> h (nth i c (0, 0)%Z) = h (nth 0 c (0, 0)%Z)).
  { induction i as [|i IH]; intros L; [reflexivity|]. rewrite <- IH by lia. symmetry. apply H. exists i. split; [lia|].
    split; [apply nth_error_nth'; lia|]. rewrite Nat.mod_small by lia. rewrite Nat.add_1_r. apply nth_error_nth'. lia. }
  intros p q I J. apply (In_nth _ _ (0, 0)%Z) in I, J. destruct I as (i & Li & <-), J as (j & Lj & <-). etransitivity; [exact (G i Li)|symmetry; exact (G j Lj)].
Qed.
Lemma beyond_not_inside c o (a b : Z) : (a * a + b * b = 1)%Z ->
  (forall p, In p c -> (a * fst p + b * snd p < a * fst o + b * snd o)%Z) -> inside c o -> ~ solid c.
Proof.
  intros U B I (p & q & s & Ip & Iq & Is & NZ). apply NZ. apply eq_IZR.
  set (d := fun p : pt => IZR a * (IZR (fst p) - IZR (fst o)) + IZR b * (IZR (snd p) - IZR (snd o))).
  set (t := fun p : pt => - IZR b * (IZR (fst p) - IZR (fst o)) + IZR a * (IZR (snd p) - IZR (snd o))).
  assert (D : forall p, In p c -> d p < 0).
  { intros r Ir. specialize (B r Ir). apply IZR_lt in B. rewrite !plus_IZR, !mult_IZR in B. unfold d. lra. }
  assert (U' : IZR a * IZR a + IZR b * IZR b = 1) by (rewrite <- !mult_IZR, <- plus_IZR; now rewrite U).
  assert (R : forall p q, rel o p q = d p * t q - d q * t p).
  { intros u v. unfold rel, d, t. set (x1 := IZR (fst u) - IZR (fst o)). set (y1 := IZR (snd u) - IZR (snd o)).
    set (x2 := IZR (fst v) - IZR (fst o)). set (y2 := IZR (snd v) - IZR (snd o)).
    replace (x1 * y2 - x2 * y1) with ((IZR a * IZR a + IZR b * IZR b) * (x1 * y2 - x2 * y1)) by (rewrite U'; ring). ring. }
  set (sl := fun p => t p / d p).
  assert (E : forall p q, is_edge c p q -> sl p - sl q = 0).
  { apply around_zero; [|apply around_telescope]. intros u v J. pose proof (right_rel _ _ _ (I u v J)) as K. rewrite R in K.
    apply edges_is_edge, edges_in in J. destruct J as [Ju Jv]. pose proof (D u Ju). pose proof (D v Jv). unfold sl.
    replace (t u / d u - t v / d v) with (- (d u * t v - d v * t u) * / (d u * d v)) by (field; lra).
    apply Rmult_le_pos; [lra|]. left. apply Rinv_0_lt_compat. nra. }
  assert (K : forall u v, In u c -> In v c -> sl u = sl v).
  { apply edges_const. intros u v J. specialize (E u v J). lra. }
  assert (T : forall u, In u c -> t u = sl p * d u).
  { intros u Iu. rewrite (K p u Ip Iu). unfold sl. pose proof (D u Iu). field. lra. }
  rewrite minus_IZR, !mult_IZR, !minus_IZR.
  assert (Z0 : (d q - d p) * (t s - t p) - (t q - t p) * (d s - d p) = 0).
  { rewrite (T p Ip), (T q Iq), (T s Is). ring. }
  unfold d, t in Z0.
  replace ((IZR (fst q) - IZR (fst p)) * (IZR (snd s) - IZR (snd p)) - (IZR (snd q) - IZR (snd p)) * (IZR (fst s) - IZR (fst p)))
    with ((IZR a * IZR a + IZR b * IZR b) * ((IZR (fst q) - IZR (fst p)) * (IZR (snd s) - IZR (snd p)) - (IZR (snd q) - IZR (snd p)) * (IZR (fst s) - IZR (fst p))))
    by (rewrite U'; ring).
  rewrite <- Z0. ring.
Qed.

Open Scope Z_scope.
Lemma min_of_le l x : In x l -> min_of l <= x.
Proof. intros I. unfold min_of. destruct l as [|a l]; [destruct I|]. now apply zmin_list_le. Qed.
Lemma max_of_ge l x : In x l -> x <= max_of l.
Proof. intros I. unfold max_of. destruct l as [|a l]; [destruct I|]. now apply list_max_ge. Qed.
Lemma zmin_list_in l : forall d, zmin_list d l = d \/ In (zmin_list d l) l.
Proof.
  unfold zmin_list. induction l as [|a l IH]; intros d; [now left|]. cbn [fold_left]. destruct (IH (Z.min d a)) as [E|E]; [|right; now right].
  rewrite E. destruct (Z.min_spec d a) as [[_ ->]|[_ ->]]; [now left|right; now left].
Qed.
Lemma list_max_in l : forall d, list_max d l = d \/ In (list_max d l) l.
Proof.
  unfold list_max. induction l as [|a l IH]; intros d; [now left|]. cbn [fold_left]. destruct (IH (Z.max d a)) as [E|E]; [|right; now right].
  rewrite E. destruct (Z.max_spec d a) as [[_ ->]|[_ ->]]; [right; now left|now left].
Qed.
Lemma min_of_in l : l <> [] -> In (min_of l) l.
Proof. destruct l as [|a l]; [easy|]. intros _. unfold min_of. destruct (zmin_list_in (a :: l) a) as [->|E]; [now left|exact E]. Qed.
Lemma max_of_in l : l <> [] -> In (max_of l) l.
Proof. destruct l as [|a l]; [easy|]. intros _. unfold max_of. destruct (list_max_in (a :: l) a) as [->|E]; [now left|exact E]. Qed.

Lemma inside_bounds c x y : solid c -> inside c (x, y) ->
  min_of (map fst c) <= x <= max_of (map fst c) /\ min_of (map snd c) <= y <= max_of (map snd c).
Proof.
  intros S I.
  destruct (Z.lt_ge_cases x (min_of (map fst c))) as [H|H1].
  { exfalso. apply (beyond_not_inside c (x, y) (-1) 0); [reflexivity| |exact I|exact S].
    intros p Ip. pose proof (min_of_le _ _ (in_map fst _ _ Ip)). cbn [fst snd] in *. lia. }
  destruct (Z.lt_ge_cases (max_of (map fst c)) x) as [H|H2].
  { exfalso. apply (beyond_not_inside c (x, y) 1 0); [reflexivity| |exact I|exact S].
    intros p Ip. pose proof (max_of_ge _ _ (in_map fst _ _ Ip)). cbn [fst snd] in *. lia. }
  destruct (Z.lt_ge_cases y (min_of (map snd c))) as [H|H3].
  { exfalso. apply (beyond_not_inside c (x, y) 0 (-1)); [reflexivity| |exact I|exact S].
    intros p Ip. pose proof (min_of_le _ _ (in_map snd _ _ Ip)). cbn [fst snd] in *. lia. }
  destruct (Z.lt_ge_cases (max_of (map snd c)) y) as [H|H4].
  { exfalso. apply (beyond_not_inside c (x, y) 0 1); [reflexivity| |exact I|exact S].
    intros p Ip. pose proof (max_of_ge _ _ (in_map snd _ _ Ip)). cbn [fst snd] in *. lia. }
  lia.
Qed.
Theorem hull_mask c : solid c -> NoDup (init_mask true c) /\ forall y x, In (y, x) (init_mask true c) <-> inside c (x, y).
Proof.
  intros S. unfold init_mask, bounding_mesh. split; [apply NoDup_filter, mesh_nodup|]. intros y x.
  rewrite filter_In, mesh_in. cbn [fst snd]. rewrite hull_contains_spec. split; [intros [_ H]; exact H|].
  intros H. split; [apply inside_bounds; assumption|exact H].
Qed.
Theorem hull_mask_unchecked c : c <> [] -> NoDup (init_mask false c) /\ forall y x, In (y, x) (init_mask false c) <->
  (exists p q, In p c /\ In q c /\ fst p <= x <= fst q) /\ (exists p q, In p c /\ In q c /\ snd p <= y <= snd q).
Proof.
  intros N. unfold init_mask, bounding_mesh. split; [apply mesh_nodup|]. intros y x. rewrite mesh_in.
  assert (M : forall f : pt -> Z, map f c <> []) by (intros f E; apply map_eq_nil in E; now apply N).
  assert (G : forall (f : pt -> Z) z, min_of (map f c) <= z <= max_of (map f c) <-> exists p q, In p c /\ In q c /\ f p <= z <= f q).
  { intros f z. split.
    - intros H. pose proof (min_of_in _ (M f)) as A. pose proof (max_of_in _ (M f)) as B. apply in_map_iff in A, B.
      destruct A as (p & Ep & Ip), B as (q & Eq & Iq). exists p, q. rewrite Ep, Eq. auto.
    - intros (p & q & Ip & Iq & H). pose proof (min_of_le _ _ (in_map f _ _ Ip)). pose proof (max_of_ge _ _ (in_map f _ _ Iq)). lia. }
  rewrite (G fst), (G snd). reflexivity.
Qed.
Theorem hull_mask_set c m y x : In (y, x) (set_mask true c m) <-> In (y, x) m /\ inside c (x, y).
Proof. unfold set_mask. rewrite filter_In. cbn [fst snd]. rewrite hull_contains_spec. reflexivity. Qed.
Theorem box_hull_mask xl xu yl yu c check y x : xl < xu -> yl < yu -> box_corners xl xu yl yu c ->
  In (y, x) (init_mask check c) <-> xl <= x <= xu /\ yl <= y <= yu.
Proof.
  intros X Y (a & b & E & ->).
  assert (IN : forall p, In p (b ++ a) <-> In p (box_vertices xl xu yl yu)).
  { intros p. unfold box_vertices. fold pt in *. rewrite E, !in_app_iff. tauto. }
  assert (NE : b ++ a <> []).
  { intros H. destruct (IN (xl, yl)) as [_ K]. rewrite H in K. apply K. now left. }
  assert (MX : min_of (map fst (b ++ a)) = xl /\ max_of (map fst (b ++ a)) = xu /\ min_of (map snd (b ++ a)) = yl /\ max_of (map snd (b ++ a)) = yu).
  { assert (Nf : forall f : pt -> Z, map f (b ++ a) <> []) by (intros f K; apply map_eq_nil in K; now apply NE).
    assert (V : forall p, In p (b ++ a) -> xl <= fst p <= xu /\ yl <= snd p <= yu).
    { intros p I. apply IN in I. unfold box_vertices in I. cbn in I. destruct I as [<-|[<-|[<-|[<-|[]]]]]; cbn; lia. }
    assert (I1 : In (xl, yl) (b ++ a)) by (apply IN; now left). assert (I2 : In (xu, yu) (b ++ a)) by (apply IN; right; right; now left).
    repeat split.
    - pose proof (min_of_in _ (Nf fst)) as K. apply in_map_iff in K. destruct K as (p & Ep & Ip). pose proof (V p Ip).
      pose proof (min_of_le _ _ (in_map fst _ _ I1)) as L. cbn [fst] in L. unfold pt in *. lia.
    - pose proof (max_of_in _ (Nf fst)) as K. apply in_map_iff in K. destruct K as (p & Ep & Ip). pose proof (V p Ip).
      pose proof (max_of_ge _ _ (in_map fst _ _ I2)) as L. cbn [fst] in L. unfold pt in *. lia.
    - pose proof (min_of_in _ (Nf snd)) as K. apply in_map_iff in K. destruct K as (p & Ep & Ip). pose proof (V p Ip).
      pose proof (min_of_le _ _ (in_map snd _ _ I1)) as L. cbn [snd] in L. unfold pt in *. lia.
    - pose proof (max_of_in _ (Nf snd)) as K. apply in_map_iff in K. destruct K as (p & Ep & Ip). pose proof (V p Ip).
      pose proof (max_of_ge _ _ (in_map snd _ _ I2)) as L. cbn [snd] in L. unfold pt in *. lia. }
  destruct MX as (M1 & M2 & M3 & M4). unfold init_mask, bounding_mesh. rewrite M1, M2, M3, M4.
  destruct check; [|apply mesh_in]. rewrite filter_In, mesh_in. cbn [fst snd]. split; [tauto|]. intros H. split; [exact H|].
  apply hull_contains_spec. intros p q K. apply edges_is_edge in K.
  assert (K' : In (p, q) (edges (box_vertices xl xu yl yu))).
  { rewrite edges_lines in *. clear -E K. unfold box_vertices. 
    destruct a as [|a0 [|a1 [|a2 [|a3 [|]]]]]; cbn [app] in E; try discriminate.
    - subst b. rewrite app_nil_r in K. exact K.
    - injection E as <- <-. cbn in *. tauto.
    - injection E as <- <- <-. cbn in *. tauto.
    - injection E as <- <- <- <-. cbn in *. tauto.
    - injection E as <- <- <- <- <-. cbn in *. tauto. }
  unfold box_vertices in K'. rewrite edges_lines in K'. cbn in K'.
  destruct K' as [Q|[Q|[Q|[Q|[]]]]]; injection Q as <- <-; unfold right_or_on; cbn [fst snd]; nia.
Qed.

(* ---------- normals and midpoints ---------- *)
Theorem normals_spec c i : (i < length c)%nat ->
  let p := nth i c (0, 0) in let q := next_corner c i in
  let l := nth i (normals true c) (0, 0) in let r := nth i (normals false c) (0, 0) in
  is_edge c p q /\ l = (- fst r, - snd r) /\ dotz r (fst q - fst p, snd q - snd p) = 0 /\
  dotz r r = (fst q - fst p) * (fst q - fst p) + (snd q - snd p) * (snd q - snd p) /\
  forall o, inside c o -> 0 <= dotz r (fst o - fst p, snd o - snd p).
Proof.
  intros L p q l r.
  assert (Ed : is_edge c p q) by (apply edges_is_edge; unfold edges; apply in_map_iff; exists i; split; [reflexivity|apply in_seq; unfold pt in *; lia]).
  assert (N : forall b, nth i (normals b c) (0, 0) = if b then (- (snd q - snd p), fst q - fst p) else (snd q - snd p, - (fst q - fst p))).
  { intros b. unfold normals. match goal with |- nth i (map ?f _) _ = _ => rewrite (nth_indep _ _ (f 0%nat)) by (rewrite map_length, seq_length; exact L); rewrite (map_nth f), seq_nth by exact L end.
    reflexivity. }
  unfold l, r. rewrite !N. unfold dotz. cbn [fst snd]. split; [exact Ed|]. split; [f_equal; lia|]. split; [ring|]. split; [ring|].
  intros o I. specialize (I p q Ed). unfold right_or_on in I. lia.
Qed.
Open Scope R_scope.
Theorem midpoints_inside c : clockwise c -> length (edge_midpoints c) = length c /\
  forall m p q, In m (edge_midpoints c) -> is_edge c p q ->
    (IZR (fst q) - IZR (fst p)) * (snd m - IZR (snd p)) - (IZR (snd q) - IZR (snd p)) * (fst m - IZR (fst p)) <= 0.
Proof.
  intros C. split; [unfold edge_midpoints, edges; now rewrite !map_length, seq_length|].
  intros m p q I E. unfold edge_midpoints in I. apply in_map_iff in I. destruct I as ([u v] & <- & J). apply edges_in in J.
  destruct J as [Ju Jv]. pose proof (C u Ju p q E) as A. pose proof (C v Jv p q E) as B. unfold right_or_on in A, B.
  apply IZR_le in A, B. rewrite minus_IZR, !mult_IZR, !minus_IZR in A, B. cbn [fst snd]. lra.
Qed.

(* ---------- centres ---------- *)
Open Scope Z_scope.
Lemma rnd_mean l : l <> [] -> rnd (mean l) = Z.quot (fold_left Z.add l 0) (Z.of_nat (length l)).
Proof.
  intros N. unfold mean. set (s := fold_left Z.add l 0).
  assert (P : exists n, Z.of_nat (length l) = Zpos n).
  { destruct l as [|a l]; [easy|]. cbn [length]. exists (Pos.of_succ_nat (length l)). reflexivity. }
  destruct P as (n & ->). unfold rnd.
  assert (F : forall z, Qfloor (inject_Z z / inject_Z (Zpos n)) = z / Zpos n).
  { intros z. unfold Qdiv, Qinv, Qmult, inject_Z. cbn. now rewrite Z.mul_1_r. }
  destruct (Qle_bool 0 (inject_Z s / inject_Z (Z.pos n))) eqn:B.
  - rewrite F. apply Qle_bool_iff in B. unfold Qle, Qdiv, Qmult, Qinv, inject_Z in B. cbn in B.
    rewrite Z.quot_div_nonneg by lia. reflexivity.
  - unfold Qceiling. assert (E : (- (inject_Z s / inject_Z (Z.pos n)) == inject_Z (- s) / inject_Z (Z.pos n))%Q).
    { rewrite inject_Z_opp. unfold Qdiv. ring. }
    rewrite E, F. assert (S : s < 0).
    { destruct (Z.lt_ge_cases s 0) as [K|K]; [exact K|]. exfalso.
      assert (T : Qle_bool 0 (inject_Z s / inject_Z (Z.pos n)) = true).
      { apply Qle_bool_iff. unfold Qle, Qdiv, Qmult, Qinv, inject_Z. cbn. lia. }
      congruence. }
    rewrite <- (Z.opp_involutive s) at 2. rewrite Z.quot_opp_l by lia. rewrite Z.quot_div_nonneg by lia. reflexivity.
Qed.
Lemma fold_total l : IZR (fold_left Z.add l 0) = total IZR l.
Proof.
  induction l as [|a l IH]; [reflexivity|]. rewrite zsum_cons, plus_IZR, IH. reflexivity.
Qed.
Lemma sum_bounds l lo hi : (forall x, In x l -> lo <= x <= hi) ->
  Z.of_nat (length l) * lo <= fold_left Z.add l 0 <= Z.of_nat (length l) * hi.
Proof.
  induction l as [|a l IH]; intros H; [cbn; lia|]. rewrite zsum_cons.
  specialize (IH (fun x I => H x (or_intror I))). specialize (H a (or_introl eq_refl)). cbn [length]. rewrite Nat2Z.inj_succ. lia.
Qed.
Lemma rnd_spec l : l <> [] ->
  (Rabs (IZR (rnd (mean l)) - average l) < 1)%R /\ (Rabs (IZR (rnd (mean l))) <= Rabs (average l))%R /\
  forall lo hi, (forall x, In x l -> lo <= x <= hi) -> lo <= rnd (mean l) <= hi.
Proof.
  intros N. rewrite (rnd_mean l N). unfold average. rewrite <- fold_total.
  set (s := fold_left Z.add l 0). assert (P : 0 < Z.of_nat (length l)) by (destruct l; [easy|cbn; lia]).
  rewrite INR_IZR_INZ. set (n := Z.of_nat (length l)) in *.
  pose proof (Z.quot_rem s n ltac:(lia)) as Q. set (q := Z.quot s n) in *. set (r := Z.rem s n) in *.
  assert (Rb : Z.abs r < n) by (unfold r; pose proof (Z.rem_bound_abs s n ltac:(lia)); lia).
  assert (Sg : 0 <= r * s) by (unfold r; apply Z.rem_sign_mul; lia).
  assert (PR : (0 < IZR n)%R) by (apply IZR_lt; exact P).
  assert (AV : (IZR s / IZR n = IZR q + IZR r / IZR n)%R).
  { rewrite Q. rewrite plus_IZR, mult_IZR. field. lra. }
  split; [|split].
  - rewrite AV. replace (IZR q - (IZR q + IZR r / IZR n))%R with (- (IZR r / IZR n))%R by ring. rewrite Rabs_Ropp.
    unfold Rdiv. rewrite Rabs_mult, Rabs_inv, (Rabs_pos_eq (IZR n)) by lra. rewrite <- abs_IZR.
    apply (Rmult_lt_reg_r (IZR n)); [exact PR|]. rewrite Rmult_assoc, Rinv_l by lra. rewrite Rmult_1_r, Rmult_1_l. apply IZR_lt. exact Rb.
  - unfold Rdiv. rewrite Rabs_mult, Rabs_inv, (Rabs_pos_eq (IZR n)) by lra. rewrite <- !abs_IZR.
    apply (Rmult_le_reg_r (IZR n)); [exact PR|]. rewrite Rmult_assoc, Rinv_l by lra. rewrite Rmult_1_r, <- mult_IZR. apply IZR_le.
    assert (AM : Z.abs q * n = Z.abs (q * n)) by (rewrite Z.abs_mul, (Z.abs_eq n) by lia; reflexivity). rewrite AM.
    assert (MR : 0 <= (q * n) * r).
    { destruct (Z.lt_trichotomy q 0) as [K|[K|K]]; [|rewrite K; lia|].
      - assert (n * q <= - n) by nia. assert (s < 0) by lia. assert (r <= 0) by (clearbody s q r n; clear - Sg H0; nia).
        apply Z.mul_nonpos_nonpos; [clear - H P; lia|exact H1].
      - assert (n <= n * q) by nia. assert (0 < s) by lia. assert (0 <= r) by (clearbody s q r n; clear - Sg H0; nia).
        apply Z.mul_nonneg_nonneg; [clear - H P; lia|exact H1]. }
    assert (QN : s = q * n + r) by lia. clearbody s q r. apply Z.le_0_mul in MR. lia.
  - intros lo hi H. apply sum_bounds in H. fold s n in H. nia.
Qed.
Theorem centre_spec v : v <> [] -> let c := centre v in
  (Rabs (IZR (fst c) - average (map fst v)) < 1)%R /\ (Rabs (IZR (snd c) - average (map snd v)) < 1)%R /\
  (Rabs (IZR (fst c)) <= Rabs (average (map fst v)))%R /\ (Rabs (IZR (snd c)) <= Rabs (average (map snd v)))%R /\
  (forall lo hi, (forall p, In p v -> lo <= fst p <= hi) -> lo <= fst c <= hi) /\
  (forall lo hi, (forall p, In p v -> lo <= snd p <= hi) -> lo <= snd c <= hi).
Proof.
  intros N c. assert (Nf : forall f : pt -> Z, map f v <> []) by (intros f K; apply map_eq_nil in K; now apply N).
  destruct (rnd_spec _ (Nf fst)) as (A1 & A2 & A3). destruct (rnd_spec _ (Nf snd)) as (B1 & B2 & B3).
  repeat apply conj; try assumption.
  - intros lo hi H. apply A3. intros x I. apply in_map_iff in I. destruct I as (p & <- & I). now apply H.
  - intros lo hi H. apply B3. intros x I. apply in_map_iff in I. destruct I as (p & <- & I). now apply H.
Qed.
Theorem centre_box xl xu yl yu m b : mk_box xl xu yl yu m = Ok b -> centre (box_vertices xl xu yl yu) = box_centre b.
Proof.
  intros E. destruct (mk_box_extents _ _ _ _ _ _ E) as [(-> & -> & -> & -> & _) _] || destruct (mk_box_extents _ _ _ _ _ _ E) as [(E1 & E2 & E3 & E4 & _) _].
  unfold centre, box_centre. rewrite ?E1, ?E2, ?E3, ?E4. rewrite !rnd_mean by discriminate. unfold box_vertices. cbn [map fold_left length fst snd Z.of_nat].
  f_equal.
  - replace (0 + xl + xl + xu + xu) with (2 * (Z.min xl xu + Z.max xl xu)) by lia. change (Zpos (Pos.of_succ_nat 3)) with (2 * 2).
    rewrite Z.quot_mul_cancel_l by lia. reflexivity.
  - replace (0 + yl + yu + yu + yl) with (2 * (Z.min yl yu + Z.max yl yu)) by lia. change (Zpos (Pos.of_succ_nat 3)) with (2 * 2).
    rewrite Z.quot_mul_cancel_l by lia. reflexivity.
Qed.
