(* Property C88: cubic splines.  Vocabulary: SplineSpec.v. *)
From Coq Require Import QArith QArith.Qcanon.
From Verif Require Import Prelude LoopFacts QcArith QcFacts SplineModel SplineSpec SplineProofs SplineProofs2 SplineProofs3.
Close Scope Q_scope. Close Scope Qc_scope.
Open Scope nat_scope.

(* a fitted spline passes through the data, whatever the boundary conditions *)
Theorem C88_interpolates n x y lt rt lv rv st s : 2 <= n -> increasing n x -> fit_cubic_spline n x y lt rt lv rv st = Ok s ->
  (forall k, k < n -> value s 0 (x k) = y k) /\
  (exists v, evaluate_spline s n x 0 = Ok v /\ forall k, k < n -> v k = y k).
Proof.
  intros Hn Hx E. destruct (fit_coefs n x y lt rt lv rv st s Hn E) as [_ C].
  split; [intros k Hk; exact (knot0 n x y s Hn Hx C k Hk)|]. eexists. split; [reflexivity|]. intros k Hk.
  rewrite (pointwise s n x 0 _ k eq_refl Hk); [exact (knot0 n x y s Hn Hx C k Hk)|apply (inc_le n); auto; lia|apply (inc_le n); auto; lia].
Qed.
Print Assumptions C88_interpolates.

(* between two knots the spline is one cubic, orders 1 and 2 are its derivatives, and value and second derivative reach
   the next knot without a jump *)
Theorem C88_pieces n x y lt rt lv rv st s k : 2 <= n -> increasing n x -> fit_cubic_spline n x y lt rt lv rv st = Ok s -> S k < n ->
  exists a, forall p, on_piece n x k p ->
    (forall q, on_piece n x k q \/ q = x (S k) ->
       value s 0 q = value s 0 p + value s 1 p * (q - p) + value s 2 p / qz 2 * (q - p) ^ 2 + a * (q - p) ^ 3 /\
       value s 2 q = value s 2 p + qz 6 * a * (q - p))%Qc /\
    (forall q, on_piece n x k q -> value s 1 q = value s 1 p + value s 2 p * (q - p) + qz 3 * a * (q - p) ^ 2)%Qc.
Proof. intros Hn Hx E Hk. exact (piece n x y s Hn Hx (proj2 (fit_coefs n x y lt rt lv rv st s Hn E)) k Hk). Qed.
Print Assumptions C88_pieces.

(* from the last knot on it is a parabola *)
Theorem C88_beyond n x y lt rt lv rv st s p q : 2 <= n -> increasing n x -> fit_cubic_spline n x y lt rt lv rv st = Ok s ->
  (x (n - 1)%nat <= p)%Qc -> (x (n - 1)%nat <= q)%Qc ->
  (value s 0 q = value s 0 p + value s 1 p * (q - p) + value s 2 p / qz 2 * (q - p) ^ 2 /\
   value s 1 q = value s 1 p + value s 2 p * (q - p) /\ value s 2 q = value s 2 p)%Qc.
Proof. intros Hn Hx E. exact (beyond n x y s Hn Hx (proj2 (fit_coefs n x y lt rt lv rv st s Hn E)) p q). Qed.
Print Assumptions C88_beyond.

(* the slope has no jump at an interior knot exactly when the second derivatives satisfy the spline equation there; for a
   natural start this holds at the first interior knot *)
Theorem C88_slope n x y lt rt lv rv st s k p : 2 <= n -> increasing n x -> fit_cubic_spline n x y lt rt lv rv st = Ok s ->
  S (S k) < n -> on_piece n x k p ->
  (slope_meets s x (S k) p <-> moment_equation x y (fun i => value s 2 (x i)) k) /\
  (lt = 2%Z -> lv = 0%Qc -> value s 2 (x 0) = 0%Qc /\ (k = 0 -> slope_meets s x (S k) p)).
Proof.
  intros Hn Hx E Hk Hp. destruct (fit_coefs n x y lt rt lv rv st s Hn E) as [Eb C].
  pose proof (slope_iff n x y s Hn Hx C k p Hk Hp) as I. split; [exact I|]. intros -> ->.
  destruct (first_equation n x y rt rv st (mb s) ltac:(lia) Hx Eb) as [Z0 M].
  split; [rewrite (knot2 n x y s Hn Hx C) by lia; rewrite Z0; ring|]. intros ->. apply I.
  unfold moment_equation in *. rewrite !(knot2 n x y s Hn Hx C) by lia. exact M.
Qed.
Print Assumptions C88_slope.

(* straight lines are reproduced everywhere by the default boundary conditions, and by their slope at the left end *)
Theorem C88_lines n x y al be lt rt lv rv st : 2 <= n -> increasing n x -> (forall i, i < n -> y i = (al * x i + be)%Qc) -> line_ends al lv rv st lt rt ->
  exists s, fit_cubic_spline n x y lt rt lv rv st = Ok s /\
    forall p, value s 0 p = (al * p + be)%Qc /\ value s 1 p = al /\ value s 2 p = 0%Qc.
Proof.
  intros Hn Hx Hy LE. destruct (proj1 (proj2 (fit_errors n x y lt rt lv rv st Hn Hx))) as (s & E).
  - unfold types_ok. destruct LE as [(-> & _ & -> & _)|(-> & _)]; auto.
  - destruct LE as [(_ & -> & _)|(-> & _)]; auto.
  - exists s. split; [exact E|]. intros p. exact (line_fit n x y al be lt rt lv rv st s p LE Hn Hx Hy E).
Qed.
Print Assumptions C88_lines.

(* which fits succeed: bad types raise ValueError, repeated knots ZeroDivisionError; increasing knots with a zero left value or
   a left slope always fit *)
Theorem C88_errors n x y lt rt lv rv st : 2 <= n ->
  (increasing n x ->
     (~ types_ok lt rt -> fit_cubic_spline n x y lt rt lv rv st = Raise ValueError) /\
     (types_ok lt rt -> lv = 0%Qc \/ lt = 1%Z -> exists s, fit_cubic_spline n x y lt rt lv rv st = Ok s) /\
     (types_ok lt rt -> (exists s, fit_cubic_spline n x y lt rt lv rv st = Ok s) \/ fit_cubic_spline n x y lt rt lv rv st = Raise ZeroDivision)) /\
  (types_ok lt rt -> (exists i, S i < n /\ x (S i) = x i) -> fit_cubic_spline n x y lt rt lv rv st = Raise ZeroDivision).
Proof.
  intros Hn. split; [intros Hx; exact (fit_errors n x y lt rt lv rv st Hn Hx)|].
  intros T (i & Hi & E). exact (repeated_knot n x y lt rt lv rv st i Hi T E).
Qed.
Print Assumptions C88_errors.

(* evaluation: any other order raises ValueError; when the first query is the least and the last the greatest, every
   query gets its own value *)
Theorem C88_queries s n q o :
  (~ good_order o -> evaluate_spline s n q o = Raise ValueError) /\
  (good_order o -> exists v, evaluate_spline s n q o = Ok v /\
     forall i, i < n -> (q 0%nat <= q i)%Qc -> (q i <= q (n - 1)%nat)%Qc -> v i = value s o (q i)).
Proof.
  split; intros H.
  - unfold evaluate_spline. destruct (_ || _) eqn:G; [|reflexivity]. exfalso. now apply H, order_test.
  - pose proof H as G. apply order_test in G. unfold evaluate_spline. rewrite G. eexists. split; [reflexivity|].
    intros i Hi A B. refine (pointwise s n q o _ i _ Hi A B). unfold evaluate_spline. now rewrite G.
Qed.
Print Assumptions C88_queries.

(* ---------- examples and refutations ---------- *)
Definition kx : arr Qc := fun i => qz (Z.of_nat i).
Definition ky : arr Qc := of_list 0%Qc (map qz [0; 1; 0; 2]%Z).
Lemma kx_inc n : increasing n kx.
Proof.
  intros i _. unfold kx, qz, Qclt, Q2Qc. cbn [this]. rewrite !Qred_correct. rewrite <- Zlt_Qlt. lia.
Qed.
Definition the_fit n y lt rt lv rv st := match fit_cubic_spline n kx y lt rt lv rv st with Ok s => s
  | Raise _ => {| ma := fun _ => 0%Qc; mb := fun _ => 0%Qc; mc := fun _ => 0%Qc; mx := kx; my := y; knots := 0 |} end.
Example C88_case : increasing 4 kx /\ fit_cubic_spline 4 kx ky 2 2 0%Qc 0%Qc 0%Qc = Ok (the_fit 4 ky 2 2 0%Qc 0%Qc 0%Qc) /\
  on_piece 4 kx 1 (Q2Qc (3 # 2)) /\ value (the_fit 4 ky 2 2 0%Qc 0%Qc 0%Qc) 2 (kx 1) <> 0%Qc.
Proof.
  split; [apply kx_inc|]. split.
  - unfold the_fit. destruct (fit_cubic_spline 4 kx ky 2 2 0%Qc 0%Qc 0%Qc) eqn:E; [reflexivity|]. vm_compute in E. discriminate.
  - split; [split; [lia|split; [right|]; vm_compute; [discriminate|reflexivity]]|]. intros E. apply (f_equal this) in E. vm_compute in E. discriminate.
Qed.

(* the slope does jump at later knots, so the result is not a cubic spline in the usual sense *)
Theorem C88_smooth_refuted : exists n x y s p, increasing n x /\ fit_cubic_spline n x y 2 2 0%Qc 0%Qc 0%Qc = Ok s /\
  on_piece n x 1 p /\ 3 < n /\ ~ slope_meets s x 2 p.
Proof.
  exists 4, kx, ky, (the_fit 4 ky 2 2 0%Qc 0%Qc 0%Qc), (Q2Qc (3 # 2)). destruct C88_case as (A & B & C & _).
  split; [exact A|]. split; [exact B|]. split; [exact C|]. split; [lia|]. intros E. apply (f_equal this) in E. vm_compute in E. discriminate.
Qed.
Print Assumptions C88_smooth_refuted.

(* nor does the second derivative vanish at the right end, and at the left end it is not the requested one *)
Theorem C88_boundary_refuted : exists n x y,
  increasing n x /\
  (exists s, fit_cubic_spline n x y 2 2 0%Qc 0%Qc 0%Qc = Ok s /\ value s 2 (x (n - 1)) <> 0%Qc) /\
  (exists s, fit_cubic_spline n x y 2 2 (qz 1) 0%Qc 0%Qc = Ok s /\ value s 2 (x 0) <> qz 1).
Proof.
  exists 4, kx, ky. split; [apply kx_inc|]. split.
  - exists (the_fit 4 ky 2 2 0%Qc 0%Qc 0%Qc). split; [apply C88_case|]. intros E. apply (f_equal this) in E. vm_compute in E. discriminate.
  - exists (the_fit 4 ky 2 2 (qz 1) 0%Qc 0%Qc). split.
    + unfold the_fit. destruct (fit_cubic_spline 4 kx ky 2 2 (qz 1) 0%Qc 0%Qc) eqn:E; [reflexivity|]. vm_compute in E. discriminate.
    + intros E. apply (f_equal this) in E. vm_compute in E. discriminate.
Qed.
Print Assumptions C88_boundary_refuted.

(* solving reads one entry behind an array ([st]); with right type 2 nothing depends on it *)
Theorem C88_memory n x y lt lv rv st st' s : 2 <= n -> increasing n x -> fit_cubic_spline n x y lt 2 lv rv st = Ok s ->
  exists s', fit_cubic_spline n x y lt 2 lv rv st' = Ok s' /\ forall o p, good_order o -> value s' o p = value s o p.
Proof. exact (stray_free n x y lt lv rv st st' s). Qed.
Print Assumptions C88_memory.

(* a given slope on the right is never reached: with left type 2 it is rejected, with left type 1 the result depends on
   the memory behind the array *)
Theorem C88_right_slope_refuted : exists n x y,
  increasing n x /\ fit_cubic_spline n x y 2 1 0%Qc 0%Qc 0%Qc = Raise ValueError /\
  exists s s', fit_cubic_spline n x y 1 1 0%Qc 0%Qc 0%Qc = Ok s /\ fit_cubic_spline n x y 1 1 0%Qc 0%Qc (qz 1) = Ok s' /\
    value s 0 (Q2Qc (1 # 2)) <> value s' 0 (Q2Qc (1 # 2)).
Proof.
  exists 4, kx, ky. split; [apply kx_inc|]. split; [vm_compute; reflexivity|].
  exists (the_fit 4 ky 1 1 0%Qc 0%Qc 0%Qc), (the_fit 4 ky 1 1 0%Qc 0%Qc (qz 1)). split; [|split].
  - unfold the_fit. destruct (fit_cubic_spline 4 kx ky 1 1 0%Qc 0%Qc 0%Qc) eqn:E; [reflexivity|]. vm_compute in E. discriminate.
  - unfold the_fit. destruct (fit_cubic_spline 4 kx ky 1 1 0%Qc 0%Qc (qz 1)) eqn:E; [reflexivity|]. vm_compute in E. discriminate.
  - intros E. apply (f_equal this) in E. vm_compute in E. discriminate.
Qed.
Print Assumptions C88_right_slope_refuted.

(* the value at a point depends on the other queries when they are not in order *)
Theorem C88_query_order_refuted : exists s q v, evaluate_spline s 2 q 0 = Ok v /\ v 1 <> value s 0 (q 1).
Proof.
  exists (the_fit 4 ky 2 2 0%Qc 0%Qc 0%Qc), (of_list 0%Qc [Q2Qc (5 # 2); Q2Qc (3 # 2)]). eexists. split; [reflexivity|].
  intros E. apply (f_equal this) in E. vm_compute in E. discriminate.
Qed.
Print Assumptions C88_query_order_refuted.

(* queries before the first or after the last query (of n, not more than there are knots): the parabola of the first knot or of knot
   n - 1, whichever knot they are near, taken at the distance from the knot before them; the second derivative on the left is
   multiplied by that distance *)
Theorem C88_outside_queries N x y lt rt lv rv st s n q i j v0 v1 v2 : 2 <= N -> increasing N x -> fit_cubic_spline N x y lt rt lv rv st = Ok s ->
  i < n -> n <= N -> on_piece N x j (q i) \/ j = N - 1 /\ (x (N - 1)%nat <= q i)%Qc ->
  evaluate_spline s n q 0 = Ok v0 -> evaluate_spline s n q 1 = Ok v1 -> evaluate_spline s n q 2 = Ok v2 ->
  let h := (q i - x j)%Qc in
  ((q i < q 0%nat)%Qc ->
    (v0 i = y 0%nat + value s 1 (x 0%nat) * h + value s 2 (x 0%nat) / qz 2 * h ^ 2 /\ v1 i = value s 1 (x 0%nat) + value s 2 (x 0%nat) * h /\ v2 i = value s 2 (x 0%nat) * h)%Qc) /\
  ((q 0%nat <= q i)%Qc -> (q (n - 1)%nat < q i)%Qc -> let k := n - 1 in
    (v0 i = y k + value s 1 (x k) * h + value s 2 (x k) / qz 2 * h ^ 2 /\ v1 i = value s 1 (x k) + value s 2 (x k) * h /\ v2 i = value s 2 (x k))%Qc).
Proof.
  intros HN Hx E Hi Hn Hj E0 E1 E2 h. destruct (fit_coefs N x y lt rt lv rv st s HN E) as [_ C].
  assert (J : searchsorted_right N x (q i) - 1 = j).
  { destruct Hj as [P|[-> P]]; [now apply piece_index|apply last_index; auto; lia]. }
  pose proof (knot2 N x y s HN Hx C) as K2.
  assert (K1 : forall k, k < N -> value s 1 (x k) = mc s k).
  { intros k Hk. rewrite value_poly by (unfold good_order; auto). destruct C as (X & _ & Kn & _). rewrite X, Kn.
    assert (Jk : searchsorted_right N x (x k) - 1 = k).
    { destruct (Nat.eq_dec k (N - 1)) as [->|D]; [apply last_index; auto; [lia|apply Qcle_refl]|].
      apply piece_index; [exact Hx|]. split; [lia|]. split; [right; apply Qcle_refl|apply Hx; lia]. }
    rewrite Jk. unfold poly. cbn. rewrite X. ring. }
  destruct C as (X & Y & Kn & _).
  unfold evaluate_spline in E0, E1, E2. cbn [Z.eqb Pos.eqb orb] in E0, E1, E2. injection E0 as <-. injection E1 as <-. injection E2 as <-.
  rewrite !(for_fill n (fun i => spline_point s _ n q (q i))) by auto.
  unfold spline_point. cbn [Z.eqb Pos.eqb]. cbv zeta. rewrite Kn, X, J. fold h. assert (H2 : (h ^ 2 = h * h)%Qc) by (cbn; ring). rewrite !H2. clearbody h. split.
  - intros L. apply Qc_ltb_lt in L. rewrite L, Y, K1, K2 by lia. repeat split; qfield.
  - intros A L. apply Qc_ltb_lt in L. apply Qc_ltb_ge in A. rewrite A, L, Y, K1, K2 by lia. repeat split; qfield.
Qed.
Print Assumptions C88_outside_queries.
(* three queries, the last one before and the second one after the others *)
Example C88_outside_case : increasing 4 kx /\ (exists s, fit_cubic_spline 4 kx ky 2 2 0%Qc 0%Qc 0%Qc = Ok s) /\
  let q := of_list 0%Qc [qz 2; Q2Qc (5 # 2); Q2Qc (1 # 2)] in (q 2%nat < q 0%nat)%Qc /\ (q 2%nat < q 1%nat)%Qc /\ on_piece 4 kx 0 (q 2) /\ on_piece 4 kx 2 (q 1).
Proof.
  split; [apply kx_inc|]. split; [eexists; apply C88_case|]. cbv zeta. repeat apply conj; vm_compute; try lia; auto. right. discriminate.
Qed.
