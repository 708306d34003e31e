(* Proofs for C35: interpolation of the beam cube *)
From Coq Require Import Reals Lra.
From Verif Require Import Prelude PreludeFacts LoopFacts CRing CplxR DftModel DftProofs BeamModel BeamSpec BeamProofs.
Open Scope R_scope.

(* hat functions around a position *)
Lemma hat_0 : hat 0 = 1. Proof. unfold hat. rewrite Rabs_R0. rewrite Rmax_right; lra. Qed.
Lemma hat_pos d : 0 <= hat d. Proof. apply Rmax_l. Qed.
Lemma hat_le1 d : hat d <= 1. Proof. unfold hat. apply Rmax_lub; [lra|]. pose proof (Rabs_pos d). lra. Qed.
Lemma hat_far d : 1 <= Rabs d -> hat d = 0. Proof. intros H. unfold hat. apply Rmax_left. lra. Qed.

Record spot (n : nat) (x : R) (k : nat) : Prop := { sp_lt : (k < n)%nat; sp_lo : INR k <= x; sp_hi : x < INR k + 1; sp_max : x <= INR n - 1 }.
Lemma spot_lower n x k : spot n x k -> hat (x - INR k) = 1 - (x - INR k).
Proof. intros []. unfold hat. rewrite Rabs_right by lra. apply Rmax_right. lra. Qed.
Lemma spot_upper n x k : spot n x k -> hat (x - INR (S k)) = x - INR k.
Proof. intros []. unfold hat. rewrite S_INR. rewrite Rabs_left1 by lra. rewrite Rmax_right; lra. Qed.
Lemma spot_far n x k i : spot n x k -> i <> k -> i <> S k -> hat (x - INR i) = 0.
Proof.
  intros [] H1 H2. apply hat_far. destruct (lt_dec i k) as [L|L].
  - assert (L' : (S i <= k)%nat) by lia. apply le_INR in L'. rewrite S_INR in L'. rewrite Rabs_right; lra.
  - assert (L' : (S (S k) <= i)%nat) by lia. apply le_INR in L'. rewrite !S_INR in L'. rewrite Rabs_left1; lra.
Qed.
Lemma spot_last n x k : spot n x k -> S k = n -> x = INR k.
Proof. intros [] E. rewrite <- E, S_INR in *. lra. Qed.

Lemma csum_two {K : cops} (L : claws K) n k (f : nat -> K) : (S k < n)%nat ->
  (forall i, (i < n)%nat -> i <> k -> i <> S k -> f i = c0) -> csum n f = cadd (f k) (f (S k)).
Proof.
  intros Hk H. replace n with (S k + (n - S k))%nat by lia. rewrite (csum_split L (S k) (n - S k)). rewrite (csum_only L (S k) k) by (try lia; intros i Hi N; apply H; lia).
  f_equal. rewrite (csum_only L (n - S k) 0); [f_equal; lia|lia|]. intros i Hi N. apply H; lia.
Qed.

Section Scaled.
  Context {K : cops} (L : claws K) (scale : R -> K -> K).
  Hypothesis scale_0 : forall z, scale 0 z = c0.
  Hypothesis scale_add : forall r a b, scale r (cadd a b) = cadd (scale r a) (scale r b).
  Hypothesis scale_mul : forall r q z, scale r (scale q z) = scale (r * q) z.
  Hypothesis scale_sum : forall q r z, scale (q + r) z = cadd (scale q z) (scale r z).

  Lemma add_0_r (z : K) : cadd z c0 = z.
  Proof. rewrite (Radd_comm (law_ring K L)). apply (Radd_0_l (law_ring K L)). Qed.
  (* linear interpolation along one axis: only the two neighbours count *)
  Lemma axis_sum n x k (v : nat -> K) : spot n x k ->
    csum n (fun i => scale (hat (x - INR i)) (v i)) = cadd (scale (1 - (x - INR k)) (v k)) (scale (x - INR k) (v (Nat.min (S k) (n - 1)))).
  Proof.
    intros Hs. pose proof (sp_lt _ _ _ Hs). destruct (Nat.eq_dec (S k) n) as [E|E].
    - pose proof (spot_last _ _ _ Hs E) as Ex. rewrite (csum_only L n k); [| |].
      + rewrite (spot_lower n) by auto. rewrite Ex. replace (INR k - INR k) with 0 by ring. rewrite scale_0. symmetry. apply add_0_r.
      + auto.
      + intros i Hi N. rewrite (spot_far n x k); auto. lia.
    - rewrite (csum_two L n k); [|lia|].
      + rewrite (spot_lower n), (spot_upper n) by auto. repeat f_equal. lia.
      + intros i Hi N1 N2. rewrite (spot_far n x k); auto.
  Qed.
  Lemma tri_eight lw mh x y w k i j (B : nat -> nat -> nat -> K) : spot lw x i -> spot mh y j ->
    let ld := x - INR i in let md := y - INR j in let i1 := Nat.min (S i) (lw - 1) in let j1 := Nat.min (S j) (mh - 1) in
    tri scale lw mh x y w k B =
    cadd (cadd (cadd (cadd (cadd (cadd (cadd
      (scale ((1 - ld) * (1 - md) * w) (B i j k)) (scale (ld * (1 - md) * w) (B i1 j k)))
      (scale ((1 - ld) * md * w) (B i j1 k))) (scale (ld * md * w) (B i1 j1 k)))
      (scale ((1 - ld) * (1 - md) * (1 - w)) (B i j (S k)))) (scale (ld * (1 - md) * (1 - w)) (B i1 j (S k))))
      (scale ((1 - ld) * md * (1 - w)) (B i j1 (S k)))) (scale (ld * md * (1 - w)) (B i1 j1 (S k))).
  Proof.
    intros Hi Hj ld md i1 j1. unfold tri.
    set (V := fun i j => cadd (scale w (B i j k)) (scale (1 - w) (B i j (S k)))).
    transitivity (csum lw (fun i => scale (hat (x - INR i)) (csum mh (fun j => scale (hat (y - INR j)) (V i j))))).
    { apply (csum_ext (K := K)). intros i' Hi'. rewrite (axis_sum mh y j) by auto. rewrite scale_add, !scale_mul.
      transitivity (csum mh (fun j => scale (hat (y - INR j)) (scale (hat (x - INR i')) (V i' j)))).
      { apply (csum_ext (K := K)). intros j' Hj'. rewrite scale_mul. now rewrite Rmult_comm. }
      rewrite (axis_sum mh y j) by auto. rewrite !scale_mul. do 2 f_equal; apply Rmult_comm. }
    rewrite (axis_sum lw x i) by auto. rewrite !(axis_sum mh y j) by auto. fold ld md i1 j1.
    unfold V. rewrite !scale_add, !scale_mul.
    pose proof (law_ring K L) as RT. assert (comm := Radd_comm RT). assert (assoc := Radd_assoc RT).
    assert (SW : forall a b c d : K, cadd (cadd a b) (cadd c d) = cadd (cadd a c) (cadd b d)).
    { intros a b c d. rewrite !assoc. f_equal. rewrite <- !assoc. f_equal. apply comm. }
    replace ((1 - ld) * ((1 - md) * w)) with ((1 - ld) * (1 - md) * w) by ring.
    replace ((1 - ld) * (md * w)) with ((1 - ld) * md * w) by ring.
    replace (ld * ((1 - md) * w)) with (ld * (1 - md) * w) by ring.
    replace (ld * (md * w)) with (ld * md * w) by ring.
    replace ((1 - ld) * ((1 - md) * (1 - w))) with ((1 - ld) * (1 - md) * (1 - w)) by ring.
    replace ((1 - ld) * (md * (1 - w))) with ((1 - ld) * md * (1 - w)) by ring.
    replace (ld * ((1 - md) * (1 - w))) with (ld * (1 - md) * (1 - w)) by ring.
    replace (ld * (md * (1 - w))) with (ld * md * (1 - w)) by ring.
    generalize (scale ((1 - ld) * (1 - md) * w) (B i j k)). intros a1.
    generalize (scale (ld * (1 - md) * w) (B i1 j k)). intros a2.
    generalize (scale ((1 - ld) * md * w) (B i j1 k)). intros a3.
    generalize (scale (ld * md * w) (B i1 j1 k)). intros a4.
    generalize (scale ((1 - ld) * (1 - md) * (1 - w)) (B i j (S k))). intros b1.
    generalize (scale (ld * (1 - md) * (1 - w)) (B i1 j (S k))). intros b2.
    generalize (scale ((1 - ld) * md * (1 - w)) (B i j1 (S k))). intros b3.
    generalize (scale (ld * md * (1 - w)) (B i1 j1 (S k))). intros b4.
    (* (a1+b1)+(a3+b3) + ((a2+b2)+(a4+b4)) *)
    rewrite (SW a1 b1 a3 b3), (SW a2 b2 a4 b4), (SW (cadd a1 a3)), (SW a1 a3 a2 a4), (SW b1 b3 b2 b4).
    rewrite !assoc. reflexivity.
  Qed.
End Scaled.

Lemma rr_scale_facts : (forall z : RR, Rmult 0 z = (c0 : RR)) /\ (forall r (a b : RR), Rmult r (cadd a b) = cadd (c := RR) (Rmult r a) (Rmult r b)) /\ (forall r q (z : RR), Rmult r (Rmult q z) = Rmult (r * q) z).
Proof. repeat split; cbn; intros; try (change (@eq R (0 * z) 0)); ring. Qed.
Lemma rc_scale_facts : (forall z : RC, cmul (ofR 0) z = c0) /\ (forall r (a b : RC), cmul (ofR r) (cadd a b) = cadd (cmul (ofR r) a) (cmul (ofR r) b)) /\
  (forall r q (z : RC), cmul (ofR r) (cmul (ofR q) z) = cmul (ofR (r * q)) z).
Proof. repeat split; intros; rc. Qed.

(* positions *)
Lemma spot_of n x : (1 <= n)%nat -> 0 <= x <= INR n - 1 -> exists k, Int_part x = Z.of_nat k /\ spot n x k /\ IZR (Int_part x) = INR k.
Proof.
  intros Hn [H0 H1]. destruct (base_Int_part x) as [A B].
  assert (P : (0 <= Int_part x)%Z). { apply le_IZR. assert (Q : (-1 < Int_part x)%Z) by (apply lt_IZR; lra). apply IZR_le. lia. }
  exists (Z.to_nat (Int_part x)). assert (E : INR (Z.to_nat (Int_part x)) = IZR (Int_part x)) by (rewrite INR_IZR_INZ, Z2Nat.id by auto; reflexivity).
  split; [lia|]. split; [|auto]. constructor; rewrite ?E; try lra.
  apply INR_lt. rewrite E. apply Rle_lt_trans with (r2 := x); lra.
Qed.
Lemma axis_pos_range n lo hi v : (1 <= n)%nat -> 0 <= axis_pos n lo hi v <= INR n - 1.
Proof.
  intros Hn. unfold axis_pos, clamp. apply le_INR in Hn. cbn in Hn.
  split; [apply Rmax_l|]. apply Rmax_lub; [lra|apply Rmin_r].
Qed.

Lemma cube_get_ok b l m k (i j p : nat) : l = Z.of_nat i -> m = Z.of_nat j -> k = Z.of_nat p -> (i < b_lw b)%nat -> (j < b_mh b)%nat -> (p < b_nud b)%nat ->
  cube_get b l m k = Ok (b_at b i j p).
Proof.
  intros -> -> -> Hi Hj Hp. unfold cube_get, in_axis.
  rewrite !(proj2 (Z.leb_le _ _)) by lia. rewrite !(proj2 (Z.ltb_lt _ _)) by lia. cbn [andb]. now rewrite !Nat2Z.id.
Qed.
Lemma cabs_0 (z : RC) : cabs z = 0 -> z = c0.
Proof.
  unfold cabs, norm2. intros H. apply sqrt_eq_0 in H; [|nra]. destruct z as [a b]. cbn in *.
  assert (A : a = 0) by nra. assert (B : b = 0) by nra. now rewrite A, B.
Qed.
Lemma normalise_with_amp A (z : RC) : normalise A z = with_amp A z.
Proof.
  unfold normalise, with_amp. destruct (Req_EM_T (cabs z) 0) as [E|E].
  - rewrite (cabs_0 _ E). rc.
  - rc.
Qed.

Lemma beam_point_ok b el eu ml mu l m pa pel pem asl asm sc w k : (2 <= b_lw b)%nat -> (2 <= b_mh b)%nat -> (S k < b_nud b)%nat ->
  exists v, beam_point b el eu ml mu l m (sin pa) (cos pa) pel pem asl asm (sc, w, Z.of_nat k) = Ok v /\
    forall c, v c = with_amp (tri_amp b (axis_pos (b_lw b) el eu (beam_l l m sc pel pem pa asl)) (axis_pos (b_mh b) ml mu (beam_m l m sc pel pem pa asm)) w k c)
                             (tri_val b (axis_pos (b_lw b) el eu (beam_l l m sc pel pem pa asl)) (axis_pos (b_mh b) ml mu (beam_m l m sc pel pem pa asm)) w k c).
Proof.
  intros Hl Hm Hk. unfold beam_point. cbv zeta.
  set (x := axis_pos (b_lw b) el eu (beam_l l m sc pel pem pa asl)). set (y := axis_pos (b_mh b) ml mu (beam_m l m sc pel pem pa asm)).
  replace (Rmax 0 (Rmin _ (IZR (Z.of_nat (b_lw b) - 1)))) with x.
  2:{ unfold x, axis_pos, clamp. rewrite minus_IZR, <- INR_IZR_INZ. f_equal. f_equal. unfold beam_l, Rdiv. ring. }
  replace (Rmax 0 (Rmin _ (IZR (Z.of_nat (b_mh b) - 1)))) with y.
  2:{ unfold y, axis_pos, clamp. rewrite minus_IZR, <- INR_IZR_INZ. f_equal. f_equal. unfold beam_m, Rdiv. ring. }
  destruct (spot_of (b_lw b) x) as (i & Ei & Si & Fi); [lia|apply axis_pos_range; lia|].
  destruct (spot_of (b_mh b) y) as (j & Ej & Sj & Fj); [lia|apply axis_pos_range; lia|].
  rewrite Fi, Fj, Ei, Ej. set (i1 := Nat.min (S i) (b_lw b - 1)). set (j1 := Nat.min (S j) (b_mh b - 1)).
  assert (E1 : Z.min (Z.of_nat i + 1) (Z.of_nat (b_lw b) - 1) = Z.of_nat i1) by (unfold i1; lia).
  assert (E2 : Z.min (Z.of_nat j + 1) (Z.of_nat (b_mh b) - 1) = Z.of_nat j1) by (unfold j1; lia). rewrite E1, E2.
  assert (H1 : (i1 < b_lw b)%nat) by (unfold i1; lia). assert (H2 : (j1 < b_mh b)%nat) by (unfold j1; lia).
  assert (H3 : (i < b_lw b)%nat) by (destruct Si; auto). assert (H4 : (j < b_mh b)%nat) by (destruct Sj; auto).
  assert (G : forall (p q r : nat) rz wt st, rz = Z.of_nat r -> (p < b_lw b)%nat -> (q < b_mh b)%nat -> (r < b_nud b)%nat ->
     accumulate b (Z.of_nat p) (Z.of_nat q) rz wt st =
     Ok (fun c => fst st c + wt * cabs (b_at b p q r c), fun c => cadd (snd st c) (cmul (ofR wt) (b_at b p q r c)))).
  { intros p q r rz wt st -> Hp Hq Hr. unfold accumulate. now rewrite (cube_get_ok b _ _ _ p q r). }
  rewrite (G i j k) by (auto; lia). cbn [bind]. rewrite (G i1 j k) by (auto; lia). cbn [bind].
  rewrite (G i j1 k) by (auto; lia). cbn [bind]. rewrite (G i1 j1 k) by (auto; lia). cbn [bind].
  rewrite (G i j (S k)) by (auto; lia). cbn [bind]. rewrite (G i1 j (S k)) by (auto; lia). cbn [bind].
  rewrite (G i j1 (S k)) by (auto; lia). cbn [bind]. rewrite (G i1 j1 (S k)) by (auto; lia). cbn [bind fst snd].
  eexists. split; [reflexivity|]. intros c. cbv beta. rewrite normalise_with_amp. cbn [fst snd]. f_equal.
  - unfold tri_amp. destruct rr_scale_facts as (F1 & F2 & F3).
    rewrite (tri_eight RR_laws Rmult F1 F2 F3 (b_lw b) (b_mh b) x y w k i j) by auto. fold i1 j1. cbn [cadd RR]. rewrite Rplus_0_l. reflexivity.
  - unfold tri_val. destruct rc_scale_facts as (F1 & F2 & F3).
    rewrite (tri_eight RC_laws (fun r z => cmul (ofR r) z) F1 F2 F3 (b_lw b) (b_mh b) x y w k i j) by auto. fold i1 j1.
    rewrite (Radd_0_l (law_ring RC RC_laws)). reflexivity.
Qed.
