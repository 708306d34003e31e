(* Sums around polygons; circumference and area *)
From Coq Require Import Reals Lra Lia Permutation.
From Verif Require Import Prelude GeomModel GeomSpec HullModel HullSpec.
Open Scope Z_scope.

(* ---------- edges ---------- *)
Lemma roll_length c : length (roll c) = length c.
Proof. destruct c; [reflexivity|]. cbn. rewrite app_length. cbn. lia. Qed.
Lemma roll_nth c i : (i < length c)%nat -> nth i (roll c) (0, 0) = next_corner c i.
Proof.
  intros H. unfold next_corner. destruct c as [|p r]; [cbn in H; lia|]. cbn [roll length] in *.
  destruct (Nat.eq_dec i (length r)) as [->|N].
  - rewrite app_nth2, Nat.sub_diag by lia. replace (length r + 1)%nat with (S (length r)) by lia.
    rewrite Nat.mod_same by lia. reflexivity.
  - rewrite app_nth1 by lia. rewrite Nat.mod_small by lia. rewrite Nat.add_1_r. reflexivity.
Qed.
Lemma edges_lines c : edges c = lines c.
Proof.
  unfold edges, lines. apply nth_ext with (d := ((0, 0), (0, 0))) (d' := ((0, 0), (0, 0))).
  - rewrite map_length, seq_length, combine_length, roll_length. lia.
  - intros n H. rewrite map_length, seq_length in H.
    rewrite combine_nth by (symmetry; apply roll_length).
    rewrite roll_nth by exact H.
    rewrite (nth_indep _ _ ((fun i => (nth i c (0, 0), next_corner c i)) 0%nat)) by (rewrite map_length, seq_length; exact H).
    rewrite (map_nth (fun i => (nth i c (0, 0), next_corner c i))), seq_nth by exact H. reflexivity.
Qed.
Lemma edges_is_edge c p q : In (p, q) (edges c) <-> is_edge c p q.
Proof.
  unfold edges. rewrite in_map_iff. split.
  - intros (i & E & I). apply in_seq in I. injection E as <- <-. exists i. split; [lia|].
    split; [apply nth_error_nth'; lia|]. unfold next_corner. apply nth_error_nth'. apply Nat.mod_upper_bound. lia.
  - intros (i & L & E1 & E2). exists i. split; [|apply in_seq; lia]. f_equal.
    + apply (nth_error_nth _ _ _ E1).
    + apply (nth_error_nth _ _ _ E2).
Qed.
Lemma edges_in c p q : In (p, q) (edges c) -> In p c /\ In q c.
Proof. rewrite edges_lines. intros H. split; [apply (in_combine_l _ _ _ _ H)|]. apply in_combine_r in H. destruct c; [exact H|]. cbn in *. rewrite in_app_iff in H. cbn in H. tauto. Qed.

(* ---------- sums ---------- *)
Open Scope R_scope.
Lemma rsum_acc l : forall a, fold_left Rplus l a = a + rsum l.
Proof.
  unfold rsum. induction l as [|x l IH]; intros a; cbn; [lra|]. rewrite IH, (IH (0 + x)). lra.
Qed.
Lemma rsum_cons x l : rsum (x :: l) = x + rsum l.
Proof. unfold rsum at 1. cbn. rewrite rsum_acc. lra. Qed.
Lemma rsum_app l l' : rsum (l ++ l') = rsum l + rsum l'.
Proof. induction l as [|x l IH]; cbn [app]; [unfold rsum; cbn; fold (rsum l'); lra|]. rewrite !rsum_cons, IH. lra. Qed.
Lemma rsum_perm l l' : Permutation l l' -> rsum l = rsum l'.
Proof. induction 1; rewrite ?rsum_cons in *; lra. Qed.
Lemma rsum_map_ext {A} (f g : A -> R) l : (forall x, In x l -> f x = g x) -> rsum (map f l) = rsum (map g l).
Proof. intros H. f_equal. now apply map_ext_in. Qed.
Lemma rsum_map_plus {A} (f g : A -> R) l : rsum (map (fun x => f x + g x) l) = rsum (map f l) + rsum (map g l).
Proof. induction l as [|x l IH]; [unfold rsum; cbn; lra|]. cbn [map]. rewrite !rsum_cons, IH. lra. Qed.
Lemma rsum_map_const {A} (l : list A) : rsum (map (fun _ => 1) l) = INR (length l).
Proof. induction l as [|x l IH]; [reflexivity|]. cbn [map length]. rewrite rsum_cons, IH, S_INR. lra. Qed.
Lemma rsum_map_scal {A} (f : A -> R) k l : rsum (map (fun x => k * f x) l) = k * rsum (map f l).
Proof. induction l as [|x l IH]; [unfold rsum; cbn; lra|]. cbn [map]. rewrite !rsum_cons, IH. lra. Qed.
Lemma zsum_acc l : forall a, (fold_left Z.add l a = a + fold_left Z.add l 0)%Z.
Proof. induction l as [|x l IH]; intros a; cbn [fold_left]; [lia|]. rewrite IH, (IH (0 + x)%Z). lia. Qed.
Lemma zsum_cons x l : (fold_left Z.add (x :: l) 0 = x + fold_left Z.add l 0)%Z.
Proof. cbn [fold_left]. rewrite zsum_acc. lia. Qed.
Lemma izr_sum {A} (f : A -> Z) l : IZR (fold_left Z.add (map f l) 0%Z) = rsum (map (fun x => IZR (f x)) l).
Proof. induction l as [|x l IH]; [reflexivity|]. cbn [map]. rewrite zsum_cons, rsum_cons, plus_IZR, IH. reflexivity. Qed.

(* sums over the edges are walks *)
Lemma walk_lines f : forall c first, rsum (map (fun e => f (fst e) (snd e)) (combine c (tl c ++ [first]))) = walk f first c.
Proof.
  induction c as [|p c IH]; intros first; [reflexivity|]. destruct c as [|q r].
  - cbn. lra.
  - cbn [tl app combine map]. rewrite rsum_cons. cbn [fst snd]. change (walk f first (p :: q :: r)) with (f p q + walk f first (q :: r)).
    rewrite <- (IH first). reflexivity.
Qed.
Lemma around_edges f c : rsum (map (fun e => f (fst e) (snd e)) (edges c)) = around f c.
Proof. rewrite edges_lines. unfold lines, around. destruct c as [|p r]; [reflexivity|]. cbn [roll]. apply (walk_lines f (p :: r) p). Qed.
Lemma around_ext f g c : (forall p q, is_edge c p q -> f p q = g p q) -> around f c = around g c.
Proof.
  intros H. rewrite <- !around_edges. apply rsum_map_ext. intros [p q] I. cbn. apply H, edges_is_edge, I.
Qed.
Lemma around_plus f g c : around (fun p q => f p q + g p q) c = around f c + around g c.
Proof. rewrite <- !around_edges. apply (rsum_map_plus (fun e : pt * pt => f (fst e) (snd e)) (fun e => g (fst e) (snd e))). Qed.
Lemma around_scal f k c : around (fun p q => k * f p q) c = k * around f c.
Proof. rewrite <- !around_edges. apply (rsum_map_scal (fun e : pt * pt => f (fst e) (snd e))). Qed.
Lemma around_one c : around (fun _ _ => 1) c = INR (length c).
Proof. rewrite <- around_edges. rewrite (rsum_map_const (edges c)), edges_lines. unfold lines. rewrite combine_length, roll_length, Nat.min_id. reflexivity. Qed.
Lemma walk_telescope h : forall c first, walk (fun p q => h p - h q) first c = match c with [] => 0 | p :: _ => h p - h first end.
Proof.
  induction c as [|p c IH]; intros first; [reflexivity|]. destruct c as [|q r]; [reflexivity|].
  change (h p - h q + walk (fun p q => h p - h q) first (q :: r) = h p - h first). rewrite IH. lra.
Qed.
Lemma around_telescope h c : around (fun p q => h p - h q) c = 0.
Proof. unfold around. destruct c as [|p r]; [reflexivity|]. rewrite walk_telescope. lra. Qed.
Lemma around_nonpos f c : (forall p q, is_edge c p q -> f p q <= 0) -> around f c <= 0.
Proof.
  intros H. rewrite <- around_edges. assert (G : forall e, In e (edges c) -> f (fst e) (snd e) <= 0).
  { intros [p q] I. apply H, edges_is_edge, I. }
  revert G. generalize (edges c). induction l as [|e l IH]; intros G; [unfold rsum; cbn; lra|].
  cbn [map]. rewrite rsum_cons. specialize (IH (fun e I => G e (or_intror I))). specialize (G e (or_introl eq_refl)). lra.
Qed.

(* ---------- circumference and area ---------- *)
Lemma norm_distance p q : norm ((fst q - fst p)%Z, (snd q - snd p)%Z) = distance p q.
Proof.
  unfold norm, distance. f_equal. cbn. rewrite plus_IZR, !mult_IZR, !minus_IZR. unfold Rsqr. ring.
Qed.
Theorem circumference_perimeter c : circumference c = perimeter c + INR (length c).
Proof.
  unfold circumference, perimeter. rewrite <- (around_one c), <- around_plus, <- around_edges. apply rsum_map_ext.
  intros [p q] _. cbn [fst snd]. rewrite norm_distance. reflexivity.
Qed.
Definition cross (p q : pt) : R := IZR (fst p) * IZR (snd q) - IZR (fst q) * IZR (snd p).
Lemma area_cross c : area c = Rabs (around cross c) / 2 + circumference c / 2 - 1.
Proof.
  unfold area, shoelace. rewrite izr_sum, <- edges_lines, <- around_edges.
  rewrite (rsum_map_ext (fun x => IZR (fst (fst x) * snd (snd x) - fst (snd x) * snd (fst x))) (fun e => cross (fst e) (snd e))).
  - unfold pt. lra.
  - intros e _. unfold cross. rewrite minus_IZR, !mult_IZR. reflexivity.
Qed.
Definition rel (o p q : pt) : R :=
  (IZR (fst p) - IZR (fst o)) * (IZR (snd q) - IZR (snd o)) - (IZR (fst q) - IZR (fst o)) * (IZR (snd p) - IZR (snd o)).
Lemma around_rel o c : around (rel o) c = around cross c.
Proof.
  rewrite (around_ext (rel o) (fun p q => cross p q + (cross o p - cross o q))).
  - rewrite around_plus, around_telescope. lra.
  - intros p q _. unfold rel, cross. ring.
Qed.
Lemma right_rel p q o : right_or_on p q o -> rel o p q <= 0.
Proof.
  unfold right_or_on, rel. intros H. apply IZR_le in H. rewrite minus_IZR, !mult_IZR, !minus_IZR in H. lra.
Qed.
Theorem area_enclosed c o : inside c o -> area c = enclosed o c + (perimeter c + INR (length c)) / 2 - 1.
Proof.
  intros H. rewrite area_cross, circumference_perimeter. unfold enclosed.
  assert (E : around (triangle o) c = Rabs (around cross c) / 2).
  { rewrite <- (around_rel o c). assert (N : around (rel o) c <= 0) by (apply around_nonpos; intros p q I; apply right_rel, H, I).
    rewrite (Rabs_left1 _ N). rewrite (around_ext (triangle o) (fun p q => (- (1/2)) * rel o p q)).
    - rewrite around_scal. lra.
    - intros p q I. unfold triangle. fold (rel o p q). rewrite (Rabs_left1 (rel o p q)); [lra|apply right_rel, H, I]. }
  rewrite E. lra.
Qed.

(* ---------- the first corner, the direction and the place do not matter ---------- *)
Lemma combine_roll a b : length a = length b -> combine (roll a) (roll b) = match combine a b with [] => [] | e :: r => r ++ [e] end.
Proof.
  destruct a as [|p a], b as [|q b]; intros L; cbn in L; try lia; [reflexivity|]. cbn [roll combine].
  injection L as L. revert b L. induction a as [|x a IH]; intros [|y b] L; cbn in L; try lia; [reflexivity|].
  cbn. f_equal. apply IH. lia.
Qed.
Lemma around_roll f c : around f (roll c) = around f c.
Proof.
  rewrite <- !around_edges, !edges_lines. unfold lines at 1. rewrite combine_roll by (symmetry; apply roll_length).
  fold (lines c). destruct (lines c) as [|e r]; [reflexivity|]. apply rsum_perm, Permutation_map.
  apply (Permutation_app_comm r [e]).
Qed.
Lemma around_start f a : forall b, around f (b ++ a) = around f (a ++ b).
Proof.
  induction a as [|p a IH]; intros b; [now rewrite app_nil_r|].
  replace (b ++ p :: a)%list with ((b ++ [p]) ++ a)%list by (rewrite <- app_assoc; reflexivity).
  rewrite IH, app_assoc. symmetry. rewrite <- (around_roll f ((p :: a) ++ b)). cbn [app roll]. reflexivity.
Qed.
Lemma area_around c c' : (around cross c = around cross c' \/ around cross c = - around cross c') -> around distance c = around distance c' ->
  length c = length c' -> area c = area c' /\ circumference c = circumference c'.
Proof.
  intros H D L. rewrite !area_cross, !circumference_perimeter. unfold perimeter. rewrite D, L. split; [|reflexivity].
  destruct H as [->| ->]; [reflexivity|]. rewrite Rabs_Ropp. reflexivity.
Qed.
Theorem area_start a b : area (b ++ a) = area (a ++ b) /\ circumference (b ++ a) = circumference (a ++ b).
Proof. apply area_around; [left; apply around_start|apply around_start|]. rewrite !app_length. lia. Qed.
Lemma walk_map f t : forall l first, walk f (t first) (map t l) = walk (fun p q => f (t p) (t q)) first l.
Proof.
  induction l as [|x l IH]; intros first; [reflexivity|]. destruct l as [|y l]; [reflexivity|].
  cbn [map]. change (f (t x) (t y) + walk f (t first) (map t (y :: l)) = f (t x) (t y) + walk (fun p q => f (t p) (t q)) first (y :: l)).
  now rewrite IH.
Qed.
Lemma around_map f t c : around f (map t c) = around (fun p q => f (t p) (t q)) c.
Proof. unfold around. destruct c as [|p r]; [reflexivity|]. exact (walk_map f t (p :: r) p). Qed.
Theorem area_shift dx dy c : area (map (shift dx dy) c) = area c /\ circumference (map (shift dx dy) c) = circumference c.
Proof.
  apply area_around; [left| |apply map_length].
  - rewrite around_map, <- (around_rel ((- dx)%Z, (- dy)%Z) c). apply around_ext. intros p q _. unfold cross, rel, shift. cbn [fst snd].
    rewrite !plus_IZR, !opp_IZR. ring.
  - rewrite around_map. apply around_ext. intros p q _. unfold distance, shift. cbn [fst snd]. rewrite !plus_IZR. f_equal. unfold Rsqr. ring.
Qed.
Lemma around_opp f c : around (fun p q => - f p q) c = - around f c.
Proof. rewrite (around_ext _ (fun p q => (-1) * f p q)) by (intros; ring). rewrite around_scal. ring. Qed.
Theorem area_swap c : area (map swap c) = area c /\ circumference (map swap c) = circumference c.
Proof.
  apply area_around; [right| |apply map_length]; rewrite around_map.
  - rewrite <- around_opp. apply around_ext. intros p q _. unfold cross, swap. cbn [fst snd]. ring.
  - apply around_ext. intros p q _. unfold distance, swap. cbn [fst snd]. f_equal. ring.
Qed.
Lemma combine_snoc {A B} : forall (a : list A) (b : list B) u v, length a = length b -> combine (a ++ [u]) (b ++ [v]) = (combine a b ++ [(u, v)])%list.
Proof. induction a as [|y a IH]; intros [|w b] u v L; cbn in *; try lia; [reflexivity|]. f_equal. apply IH. lia. Qed.
Lemma combine_rev_lines (r : list pt) : forall p z,
  combine (z :: rev r) (rev r ++ [p]) = rev (map (fun e : pt * pt => (snd e, fst e)) (combine (p :: r) (r ++ [z]))).
Proof.
  induction r as [|x r IH] using rev_ind; intros p z; [reflexivity|].
  rewrite rev_app_distr. cbn [rev app].
  change (combine (z :: x :: rev r) (x :: rev r ++ [p])) with ((z, x) :: combine (x :: rev r) (rev r ++ [p])). rewrite IH.
  change (p :: r ++ [x])%list with ((p :: r) ++ [x])%list.
  rewrite (combine_snoc (p :: r) (r ++ [x])%list x z) by (cbn; rewrite app_length; cbn; lia).
  rewrite map_app, rev_app_distr. reflexivity.
Qed.
Lemma around_rev f c : around f (rev c) = around (fun p q => f q p) c.
Proof.
  destruct c as [|p r]; [reflexivity|]. cbn [rev]. rewrite around_start. cbn [app].
  rewrite <- !around_edges, !edges_lines. unfold lines. cbn [roll].
  rewrite combine_rev_lines, map_rev, map_map. cbn [fst snd]. apply rsum_perm. symmetry. apply Permutation_rev.
Qed.
Theorem area_rev c : area (rev c) = area c /\ circumference (rev c) = circumference c.
Proof.
  apply area_around; [right| |apply rev_length]; rewrite around_rev.
  - rewrite <- around_opp. apply around_ext. intros p q _. unfold cross. ring.
  - apply around_ext. intros p q _. unfold distance. f_equal. unfold Rsqr. ring.
Qed.
