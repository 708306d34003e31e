(* Proofs for C64 *)
From Coq Require Import Reals Lra.
From Verif Require Import Prelude PreludeFacts LoopFacts DftModel DftProofs CoordModel CoordSpec.
Open Scope R_scope.

Definition cosdist ra dec ra0 dec0 := dot (direction ra dec) (direction ra0 dec0).
Lemma l_east ra dec ra0 : dot (direction ra dec) (east ra0) = cos dec * sin (ra - ra0).
Proof. unfold dot, direction, east. rewrite sin_minus. ring. Qed.
Lemma m_north ra dec ra0 dec0 : dot (direction ra dec) (north ra0 dec0) = sin dec * cos dec0 - cos dec * sin dec0 * cos (ra - ra0).
Proof. unfold dot, direction, north. rewrite cos_minus. ring. Qed.
Lemma n_centre ra dec ra0 dec0 : cosdist ra dec ra0 dec0 = sin dec * sin dec0 + cos dec * cos dec0 * cos (ra - ra0).
Proof. unfold cosdist, dot, direction. rewrite cos_minus. ring. Qed.
Lemma sc x : sin x * sin x + cos x * cos x = 1.
Proof. pose proof (sin2_cos2 x). unfold Rsqr in *. lra. Qed.
Lemma unit_sphere d da d0 : (cos d * sin da) ^ 2 + (sin d * cos d0 - cos d * sin d0 * cos da) ^ 2 + (sin d * sin d0 + cos d * cos d0 * cos da) ^ 2 = 1.
Proof.
  pose proof (sc d) as A. pose proof (sc da) as B. pose proof (sc d0) as C.
  transitivity ((cos d * cos d) * (sin da * sin da) + (sin d * sin d) * (sin d0 * sin d0 + cos d0 * cos d0) + (cos d * cos d) * (cos da * cos da) * (sin d0 * sin d0 + cos d0 * cos d0)); [ring|].
  rewrite C. transitivity ((cos d * cos d) * (sin da * sin da + cos da * cos da) + sin d * sin d); [ring|]. rewrite B. lra.
Qed.
Lemma n_value d da d0 : sqrt (1 - (cos d * sin da) ^ 2 - (sin d * cos d0 - cos d * sin d0 * cos da) ^ 2) = Rabs (sin d * sin d0 + cos d * cos d0 * cos da).
Proof.
  rewrite <- sqrt_Rsqr_abs. f_equal. pose proof (unit_sphere d da d0). unfold Rsqr. lra.
Qed.

Lemma upd2_at_col (x : arr2 R) s c v s' c' : upd2 x s c v s' c' = if (Nat.eqb s' s && Nat.eqb c' c)%bool then v else x s' c'.
Proof. reflexivity. Qed.
(* one row of each loop *)
Lemma lmn_rows n radec pc s : (s < n)%nat -> exists out, radec_to_lmn n 2 radec pc = Ok out /\
  let ra0 := fst (phase_centre_of pc) in let dec0 := snd (phase_centre_of pc) in
  out s 0%nat = dot (direction (radec s 0%nat) (radec s 1%nat)) (east ra0) /\
  out s 1%nat = dot (direction (radec s 0%nat) (radec s 1%nat)) (north ra0 dec0) /\
  out s 2%nat = Rabs (dot (direction (radec s 0%nat) (radec s 1%nat)) (direction ra0 dec0)).
Proof.
  intros Hs. unfold radec_to_lmn. destruct (phase_centre_of pc) as [ra0 dec0]. cbn [Nat.eqb negb fst snd]. eexists. split; [reflexivity|]. cbv zeta.
  rewrite l_east, m_north. fold (cosdist (radec s 0%nat) (radec s 1%nat) ra0 dec0). rewrite n_centre, <- n_value.
  repeat split.
  - apply (for_at (fun x : arr2 R => x s 0%nat) (fun _ => cos (radec s 1%nat) * sin (radec s 0%nat - ra0)) s); auto.
    + intros i x _ N. rewrite !upd2_at_col. destruct (Nat.eqb_spec s i); [congruence|reflexivity].
    + intros x. rewrite !upd2_at_col, Nat.eqb_refl. reflexivity.
  - apply (for_at (fun x : arr2 R => x s 1%nat) (fun _ => sin (radec s 1%nat) * cos dec0 - cos (radec s 1%nat) * sin dec0 * cos (radec s 0%nat - ra0)) s); auto.
    + intros i x _ N. rewrite !upd2_at_col. destruct (Nat.eqb_spec s i); [congruence|reflexivity].
    + intros x. rewrite !upd2_at_col, Nat.eqb_refl. reflexivity.
  - apply (for_at (fun x : arr2 R => x s 2%nat) (fun _ => sqrt (1 - (cos (radec s 1%nat) * sin (radec s 0%nat - ra0)) ^ 2 -
      (sin (radec s 1%nat) * cos dec0 - cos (radec s 1%nat) * sin dec0 * cos (radec s 0%nat - ra0)) ^ 2)) s); auto.
    + intros i x _ N. rewrite !upd2_at_col. destruct (Nat.eqb_spec s i); [congruence|reflexivity].
    + intros x. rewrite !upd2_at_col, Nat.eqb_refl. reflexivity.
Qed.
Lemma lm_rows n radec pc s : (s < n)%nat -> exists out, radec_to_lm n 2 radec pc = Ok out /\
  let ra0 := fst (phase_centre_of pc) in let dec0 := snd (phase_centre_of pc) in
  out s 0%nat = dot (direction (radec s 0%nat) (radec s 1%nat)) (east ra0) /\
  out s 1%nat = dot (direction (radec s 0%nat) (radec s 1%nat)) (north ra0 dec0).
Proof.
  intros Hs. unfold radec_to_lm. destruct (phase_centre_of pc) as [ra0 dec0]. cbn [Nat.eqb negb fst snd]. eexists. split; [reflexivity|]. cbv zeta.
  rewrite l_east, m_north. split.
  - apply (for_at (fun x : arr2 R => x s 0%nat) (fun _ => cos (radec s 1%nat) * sin (radec s 0%nat - ra0)) s); auto.
    + intros i x _ N. rewrite !upd2_at_col. destruct (Nat.eqb_spec s i); [congruence|reflexivity].
    + intros x. rewrite !upd2_at_col, Nat.eqb_refl. reflexivity.
  - apply (for_at (fun x : arr2 R => x s 1%nat) (fun _ => sin (radec s 1%nat) * cos dec0 - cos (radec s 1%nat) * sin dec0 * cos (radec s 0%nat - ra0)) s); auto.
    + intros i x _ N. rewrite !upd2_at_col. destruct (Nat.eqb_spec s i); [congruence|reflexivity].
    + intros x. rewrite !upd2_at_col, Nat.eqb_refl. reflexivity.
Qed.
Definition back_ra l m n ra0 dec0 : R := ra0 + atan (l / (n * cos dec0 - m * sin dec0)).
Definition back_dec m n dec0 : R := asin (m * cos dec0 + n * sin dec0).
Lemma lmn_back_rows k x pc s : (s < k)%nat -> exists out, lmn_to_radec k 3 x pc = Ok out /\
  out s 0%nat = back_ra (x s 0%nat) (x s 1%nat) (x s 2%nat) (fst (phase_centre_of pc)) (snd (phase_centre_of pc)) /\
  out s 1%nat = back_dec (x s 1%nat) (x s 2%nat) (snd (phase_centre_of pc)).
Proof.
  intros Hs. unfold lmn_to_radec. destruct (phase_centre_of pc) as [ra0 dec0]. cbn [Nat.eqb negb fst snd]. eexists. split; [reflexivity|]. cbv zeta. split.
  - apply (for_at (fun y : arr2 R => y s 0%nat) (fun _ => back_ra (x s 0%nat) (x s 1%nat) (x s 2%nat) ra0 dec0) s); auto.
    + intros i y _ N. rewrite !upd2_at_col. destruct (Nat.eqb_spec s i); [congruence|reflexivity].
    + intros y. rewrite !upd2_at_col, Nat.eqb_refl. reflexivity.
  - apply (for_at (fun y : arr2 R => y s 1%nat) (fun _ => back_dec (x s 1%nat) (x s 2%nat) dec0) s); auto.
    + intros i y _ N. rewrite !upd2_at_col. destruct (Nat.eqb_spec s i); [congruence|reflexivity].
    + intros y. rewrite !upd2_at_col, Nat.eqb_refl. reflexivity.
Qed.
Lemma lm_back_rows k x pc s : (s < k)%nat -> exists out, lm_to_radec k 2 x pc = Ok out /\
  out s 0%nat = back_ra (x s 0%nat) (x s 1%nat) (sqrt (1 - x s 0%nat ^ 2 - x s 1%nat ^ 2)) (fst (phase_centre_of pc)) (snd (phase_centre_of pc)) /\
  out s 1%nat = back_dec (x s 1%nat) (sqrt (1 - x s 0%nat ^ 2 - x s 1%nat ^ 2)) (snd (phase_centre_of pc)).
Proof.
  intros Hs. unfold lm_to_radec. destruct (phase_centre_of pc) as [ra0 dec0]. cbn [Nat.eqb negb fst snd]. eexists. split; [reflexivity|]. cbv zeta. split.
  - apply (for_at (fun y : arr2 R => y s 0%nat) (fun _ => back_ra (x s 0%nat) (x s 1%nat) (sqrt (1 - x s 0%nat ^ 2 - x s 1%nat ^ 2)) ra0 dec0) s); auto.
    + intros i y _ N. rewrite !upd2_at_col. destruct (Nat.eqb_spec s i); [congruence|reflexivity].
    + intros y. rewrite !upd2_at_col, Nat.eqb_refl. reflexivity.
  - apply (for_at (fun y : arr2 R => y s 1%nat) (fun _ => back_dec (x s 1%nat) (sqrt (1 - x s 0%nat ^ 2 - x s 1%nat ^ 2)) dec0) s); auto.
    + intros i y _ N. rewrite !upd2_at_col. destruct (Nat.eqb_spec s i); [congruence|reflexivity].
    + intros y. rewrite !upd2_at_col, Nat.eqb_refl. reflexivity.
Qed.

(* geometry of the way back *)
Lemma back_sin d da d0 : let m := sin d * cos d0 - cos d * sin d0 * cos da in let n := sin d * sin d0 + cos d * cos d0 * cos da in
  m * cos d0 + n * sin d0 = sin d /\ n * cos d0 - m * sin d0 = cos d * cos da.
Proof.
  cbv zeta. pose proof (sc d0) as C. split.
  - transitivity (sin d * (sin d0 * sin d0 + cos d0 * cos d0)); [ring|]. rewrite C. ring.
  - transitivity (cos d * cos da * (sin d0 * sin d0 + cos d0 * cos d0)); [ring|]. rewrite C. ring.
Qed.
Lemma atan_tan x : - (PI / 2) < x < PI / 2 -> atan (tan x) = x.
Proof. intros H. apply atan_tan. lra. Qed.
Lemma back_ok ra d ra0 d0 : - (PI / 2) < d < PI / 2 -> - (PI / 2) < ra - ra0 < PI / 2 -> 0 <= cosdist ra d ra0 d0 ->
  back_ra (dot (direction ra d) (east ra0)) (dot (direction ra d) (north ra0 d0)) (Rabs (cosdist ra d ra0 d0)) ra0 d0 = ra /\
  back_dec (dot (direction ra d) (north ra0 d0)) (Rabs (cosdist ra d ra0 d0)) d0 = d.
Proof.
  intros Hd Ha Hn. rewrite Rabs_right by lra. rewrite n_centre, l_east, m_north. unfold back_ra, back_dec.
  destruct (back_sin d (ra - ra0) d0) as [A B]. rewrite A, B. split.
  - assert (0 < cos d) by (apply cos_gt_0; lra). assert (0 < cos (ra - ra0)) by (apply cos_gt_0; lra).
    replace (cos d * sin (ra - ra0) / (cos d * cos (ra - ra0))) with (tan (ra - ra0)) by (unfold tan; field; lra).
    rewrite atan_tan by lra. ring.
  - apply asin_sin. lra.
Qed.
(* the arctangent loses half a turn *)
Lemma back_flipped ra d ra0 d0 : - (PI / 2) < d < PI / 2 -> PI / 2 < ra - ra0 < 3 * (PI / 2) -> 0 <= cosdist ra d ra0 d0 ->
  back_ra (dot (direction ra d) (east ra0)) (dot (direction ra d) (north ra0 d0)) (Rabs (cosdist ra d ra0 d0)) ra0 d0 = ra - PI.
Proof.
  intros Hd Ha Hn. rewrite Rabs_right by lra. rewrite n_centre, l_east, m_north. unfold back_ra.
  destruct (back_sin d (ra - ra0) d0) as [A B]. rewrite B.
  assert (0 < cos d) by (apply cos_gt_0; lra). assert (0 < cos (ra - ra0 - PI)) by (apply cos_gt_0; lra).
  replace (ra - ra0) with (ra - ra0 - PI + PI) by ring. rewrite neg_sin, neg_cos.
  replace (cos d * - sin (ra - ra0 - PI) / (cos d * - cos (ra - ra0 - PI))) with (tan (ra - ra0 - PI)) by (unfold tan; field; lra).
  rewrite atan_tan by lra. ring.
Qed.

(* sky coordinates from direction cosines and back *)
Lemma forward_ok l m ra0 d0 : l ^ 2 + m ^ 2 <= 1 -> 0 < sqrt (1 - l ^ 2 - m ^ 2) * cos d0 - m * sin d0 ->
  let n := sqrt (1 - l ^ 2 - m ^ 2) in let ra := back_ra l m n ra0 d0 in let dec := back_dec m n d0 in
  dot (direction ra dec) (east ra0) = l /\ dot (direction ra dec) (north ra0 d0) = m /\ dot (direction ra dec) (direction ra0 d0) = n.
Proof.
  intros H P. cbv zeta. fold (cosdist (back_ra l m (sqrt (1 - l ^ 2 - m ^ 2)) ra0 d0) (back_dec m (sqrt (1 - l ^ 2 - m ^ 2)) d0) ra0 d0).
  rewrite l_east, m_north, n_centre. set (n := sqrt (1 - l ^ 2 - m ^ 2)) in *.
  assert (N : n * n = 1 - l ^ 2 - m ^ 2) by (apply sqrt_sqrt; lra). pose proof (sc d0) as C.
  unfold back_ra, back_dec. set (a := m * cos d0 + n * sin d0). set (b := n * cos d0 - m * sin d0) in *.
  replace (ra0 + atan (l / b) - ra0) with (atan (l / b)) by ring.
  assert (Q : a * a + b * b + l * l = 1).
  { unfold a, b. transitivity ((m * m + n * n) * (sin d0 * sin d0 + cos d0 * cos d0) + l * l); [ring|]. rewrite C, N. ring. }
  assert (Ha : -1 <= a <= 1) by (split; nra). rewrite sin_asin by lra. rewrite cos_asin by lra.
  assert (E : sqrt (1 - Rsqr a) = b * sqrt (1 + (l / b) ^ 2)).
  { replace (1 - Rsqr a) with (b * b * (1 + (l / b) ^ 2)). 2:{ unfold Rsqr. replace (1 - a * a) with (b * b + l * l) by lra. field. lra. }
    rewrite sqrt_mult_alt by nra. rewrite sqrt_square by lra. reflexivity. }
  assert (S0 : 0 < sqrt (1 + (l / b) ^ 2)) by (apply sqrt_lt_R0; nra).
  assert (X : sqrt (1 - Rsqr a) * sin (atan (l / b)) = l).
  { rewrite E, sin_atan. replace (Rsqr (l / b)) with ((l / b) ^ 2) by (unfold Rsqr; ring). field. lra. }
  assert (Y : sqrt (1 - Rsqr a) * cos (atan (l / b)) = b).
  { rewrite E, cos_atan. replace (Rsqr (l / b)) with ((l / b) ^ 2) by (unfold Rsqr; ring). field. lra. }
  split; [exact X|]. split.
  - transitivity (a * cos d0 - sqrt (1 - Rsqr a) * cos (atan (l / b)) * sin d0); [ring|]. rewrite Y. unfold a, b.
    transitivity (m * (sin d0 * sin d0 + cos d0 * cos d0)); [ring|]. rewrite C. ring.
  - transitivity (a * sin d0 + sqrt (1 - Rsqr a) * cos (atan (l / b)) * cos d0); [ring|]. rewrite Y. unfold a, b.
    transitivity (n * (sin d0 * sin d0 + cos d0 * cos d0)); [ring|]. rewrite C. ring.
Qed.

(* --- statements --- *)
Lemma lmn_unit n radec pc s : (s < n)%nat -> exists out, radec_to_lmn n 2 radec pc = Ok out /\ out s 0%nat ^ 2 + out s 1%nat ^ 2 + out s 2%nat ^ 2 = 1 /\ 0 <= out s 2%nat.
Proof.
  intros Hs. destruct (lmn_rows n radec pc s Hs) as (out & E & A & B & C). cbv zeta in *. exists out. split; auto. rewrite A, B, C.
  fold (cosdist (radec s 0%nat) (radec s 1%nat) (fst (phase_centre_of pc)) (snd (phase_centre_of pc))). split; [|apply Rabs_pos].
  rewrite pow2_abs. rewrite l_east, m_north, n_centre. apply unit_sphere.
Qed.
Lemma lmn_round_trip n radec pc s : (s < n)%nat ->
  let ra0 := fst (phase_centre_of pc) in let dec0 := snd (phase_centre_of pc) in
  - (PI / 2) < radec s 1%nat < PI / 2 -> - (PI / 2) < radec s 0%nat - ra0 < PI / 2 -> 0 <= dot (direction (radec s 0%nat) (radec s 1%nat)) (direction ra0 dec0) ->
  exists lmn back, radec_to_lmn n 2 radec pc = Ok lmn /\ lmn_to_radec n 3 lmn pc = Ok back /\ back s 0%nat = radec s 0%nat /\ back s 1%nat = radec s 1%nat.
Proof.
  intros Hs ra0 dec0 Hd Ha Hn. destruct (lmn_rows n radec pc s Hs) as (lmn & E & A & B & C). cbv zeta in *.
  destruct (lmn_back_rows n lmn pc s Hs) as (back & E' & X & Y). exists lmn, back. split; auto. split; auto. rewrite X, Y, A, B, C. now apply back_ok.
Qed.
Lemma lm_round_trip n radec pc s : (s < n)%nat ->
  let ra0 := fst (phase_centre_of pc) in let dec0 := snd (phase_centre_of pc) in
  - (PI / 2) < radec s 1%nat < PI / 2 -> - (PI / 2) < radec s 0%nat - ra0 < PI / 2 -> 0 <= dot (direction (radec s 0%nat) (radec s 1%nat)) (direction ra0 dec0) ->
  exists lm back, radec_to_lm n 2 radec pc = Ok lm /\ lm_to_radec n 2 lm pc = Ok back /\ back s 0%nat = radec s 0%nat /\ back s 1%nat = radec s 1%nat.
Proof.
  intros Hs ra0 dec0 Hd Ha Hn. destruct (lm_rows n radec pc s Hs) as (lm & E & A & B). cbv zeta in *.
  destruct (lm_back_rows n lm pc s Hs) as (back & E' & X & Y). exists lm, back. split; auto. split; auto. rewrite X, Y, A, B.
  replace (sqrt _) with (Rabs (cosdist (radec s 0%nat) (radec s 1%nat) (fst (phase_centre_of pc)) (snd (phase_centre_of pc)))). now apply back_ok.
  rewrite n_centre, <- n_value. now rewrite l_east, m_north.
Qed.
Lemma lm_inverse n lm pc s : (s < n)%nat ->
  let dec0 := snd (phase_centre_of pc) in let l := lm s 0%nat in let m := lm s 1%nat in
  l ^ 2 + m ^ 2 <= 1 -> 0 < sqrt (1 - l ^ 2 - m ^ 2) * cos dec0 - m * sin dec0 ->
  exists radec back, lm_to_radec n 2 lm pc = Ok radec /\ radec_to_lm n 2 radec pc = Ok back /\ back s 0%nat = l /\ back s 1%nat = m.
Proof.
  intros Hs dec0 l m H P. destruct (lm_back_rows n lm pc s Hs) as (radec & E & A & B). destruct (lm_rows n radec pc s Hs) as (back & E' & X & Y). cbv zeta in *.
  exists radec, back. split; auto. split; auto. rewrite X, Y, A, B.
  destruct (forward_ok l m (fst (phase_centre_of pc)) dec0 H P) as (U & V & _). auto.
Qed.
Lemma lmn_half_turn n radec pc s : (s < n)%nat ->
  let ra0 := fst (phase_centre_of pc) in let dec0 := snd (phase_centre_of pc) in
  - (PI / 2) < radec s 1%nat < PI / 2 -> PI / 2 < radec s 0%nat - ra0 < 3 * (PI / 2) -> 0 <= dot (direction (radec s 0%nat) (radec s 1%nat)) (direction ra0 dec0) ->
  exists lmn back, radec_to_lmn n 2 radec pc = Ok lmn /\ lmn_to_radec n 3 lmn pc = Ok back /\ back s 0%nat = radec s 0%nat - PI.
Proof.
  intros Hs ra0 dec0 Hd Ha Hn. destruct (lmn_rows n radec pc s Hs) as (lmn & E & A & B & C). cbv zeta in *.
  destruct (lmn_back_rows n lmn pc s Hs) as (back & E' & X & Y). exists lmn, back. split; auto. split; auto. rewrite X, A, B, C. now apply back_flipped.
Qed.
Lemma behind_mirrored n radec pc s : (s < n)%nat -> dot (direction (radec s 0%nat) (radec s 1%nat)) (direction (fst (phase_centre_of pc)) (snd (phase_centre_of pc))) < 0 ->
  exists out, radec_to_lmn n 2 radec pc = Ok out /\ out s 2%nat = - dot (direction (radec s 0%nat) (radec s 1%nat)) (direction (fst (phase_centre_of pc)) (snd (phase_centre_of pc))).
Proof.
  intros Hs H. destruct (lmn_rows n radec pc s Hs) as (out & E & _ & _ & C). cbv zeta in *. exists out. split; auto. rewrite C. apply Rabs_left. auto.
Qed.
(* rows depend on their own input only *)
Definition row_local (f : nat -> nat -> arr2 R -> option (R * R) -> res (arr2 R)) (comps ncol : nat) : Prop :=
  exists g : arr R -> option (R * R) -> nat -> R, forall n x pc, exists out, f n comps x pc = Ok out /\ forall s c, (s < n)%nat -> (c < ncol)%nat -> out s c = g (x s) pc c.
Lemma local_chunks f comps ncol : row_local f comps ncol -> forall sources x pc s c, (s < list_sum sources)%nat -> (c < ncol)%nat ->
  exists out, f (list_sum sources) comps x pc = Ok out /\ dask_coords f sources comps x pc s c = Ok (out s c).
Proof.
  intros (g & H) sources x pc s c Hs Hc. destruct (H (list_sum sources) x pc) as (out & E & V). exists out. split; auto.
  unfold dask_coords. destruct (locate 0 sources s) as [s0 ns] eqn:Es. apply locate_spec in Es; [|lia].
  destruct (H ns (fun i => x (s0 + i)%nat) pc) as (blk & Eb & Vb). rewrite Eb. cbn [bind]. rewrite Vb, V by lia.
  replace (s0 + (s - s0))%nat with s by lia. reflexivity.
Qed.
Lemma local_lmn : row_local radec_to_lmn 2 3.
Proof.
  exists (fun r pc c => match c with O => dot (direction (r 0%nat) (r 1%nat)) (east (fst (phase_centre_of pc)))
    | 1%nat => dot (direction (r 0%nat) (r 1%nat)) (north (fst (phase_centre_of pc)) (snd (phase_centre_of pc)))
    | _ => Rabs (dot (direction (r 0%nat) (r 1%nat)) (direction (fst (phase_centre_of pc)) (snd (phase_centre_of pc)))) end).
  intros n x pc. assert (E : exists out, radec_to_lmn n 2 x pc = Ok out) by (unfold radec_to_lmn; destruct (phase_centre_of pc); cbn; eauto).
  destruct E as (out & E). exists out. split; auto. intros s c Hs Hc. destruct (lmn_rows n x pc s Hs) as (out' & E' & A & B & C). rewrite E in E'. injection E' as <-.
  destruct c as [|[|[|c]]]; auto; lia.
Qed.
Lemma local_lm : row_local radec_to_lm 2 2.
Proof.
  exists (fun r pc c => match c with O => dot (direction (r 0%nat) (r 1%nat)) (east (fst (phase_centre_of pc)))
    | _ => dot (direction (r 0%nat) (r 1%nat)) (north (fst (phase_centre_of pc)) (snd (phase_centre_of pc))) end).
  intros n x pc. assert (E : exists out, radec_to_lm n 2 x pc = Ok out) by (unfold radec_to_lm; destruct (phase_centre_of pc); cbn; eauto).
  destruct E as (out & E). exists out. split; auto. intros s c Hs Hc. destruct (lm_rows n x pc s Hs) as (out' & E' & A & B). rewrite E in E'. injection E' as <-.
  destruct c as [|[|c]]; auto; lia.
Qed.
Lemma local_lmn_back : row_local lmn_to_radec 3 2.
Proof.
  exists (fun r pc c => match c with O => back_ra (r 0%nat) (r 1%nat) (r 2%nat) (fst (phase_centre_of pc)) (snd (phase_centre_of pc)) | _ => back_dec (r 1%nat) (r 2%nat) (snd (phase_centre_of pc)) end).
  intros n x pc. assert (E : exists out, lmn_to_radec n 3 x pc = Ok out) by (unfold lmn_to_radec; destruct (phase_centre_of pc); cbn; eauto).
  destruct E as (out & E). exists out. split; auto. intros s c Hs Hc. destruct (lmn_back_rows n x pc s Hs) as (out' & E' & A & B). rewrite E in E'. injection E' as <-.
  destruct c as [|[|c]]; auto; lia.
Qed.
Lemma local_lm_back : row_local lm_to_radec 2 2.
Proof.
  exists (fun r pc c => match c with O => back_ra (r 0%nat) (r 1%nat) (sqrt (1 - r 0%nat ^ 2 - r 1%nat ^ 2)) (fst (phase_centre_of pc)) (snd (phase_centre_of pc))
    | _ => back_dec (r 1%nat) (sqrt (1 - r 0%nat ^ 2 - r 1%nat ^ 2)) (snd (phase_centre_of pc)) end).
  intros n x pc. assert (E : exists out, lm_to_radec n 2 x pc = Ok out) by (unfold lm_to_radec; destruct (phase_centre_of pc); cbn; eauto).
  destruct E as (out & E). exists out. split; auto. intros s c Hs Hc. destruct (lm_back_rows n x pc s Hs) as (out' & E' & A & B). rewrite E in E'. injection E' as <-.
  destruct c as [|[|c]]; auto; lia.
Qed.
Lemma bad_shape n k x pc : (k <> 2 -> radec_to_lmn n k x pc = Raise ValueError /\ radec_to_lm n k x pc = Raise ValueError /\ lm_to_radec n k x pc = Raise ValueError)%nat /\
  (k <> 3 -> lmn_to_radec n k x pc = Raise ValueError)%nat.
Proof.
  split; intros H; [|unfold lmn_to_radec; now rewrite (proj2 (Nat.eqb_neq _ _) H)].
  unfold radec_to_lmn, radec_to_lm, lm_to_radec. rewrite (proj2 (Nat.eqb_neq _ _) H). auto.
Qed.
