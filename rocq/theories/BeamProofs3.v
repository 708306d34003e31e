(* Proofs for C35: the loops, bounds, nodes and chunks *)
From Coq Require Import Reals Lra.
From Verif Require Import Prelude PreludeFacts LoopFacts CRing CplxR DftModel DftProofs BeamModel BeamSpec BeamProofs BeamProofs2.
Open Scope R_scope.

Lemma upd4_at {A} (x : nat -> nat -> nat -> nat -> A) s t a f v : upd4 x s t a f v s t a f = v.
Proof. unfold upd4. now rewrite !Nat.eqb_refl. Qed.
Lemma upd4_off {A} (x : nat -> nat -> nat -> nat -> A) s t a f v s' t' a' f' : (s' <> s \/ t' <> t \/ a' <> a \/ f' <> f) ->
  upd4 x s t a f v s' t' a' f' = x s' t' a' f'.
Proof.
  intros H. unfold upd4. destruct (Nat.eqb_spec s' s), (Nat.eqb_spec t' t), (Nat.eqb_spec a' a), (Nat.eqb_spec f' f); cbn; auto. lia.
Qed.
(* a four-fold loop writing every element once *)
Lemma fill4 {A} nt na ns nf (v : nat -> nat -> nat -> nat -> A) st0 :
  forall s t a f, (s < ns)%nat -> (t < nt)%nat -> (a < na)%nat -> (f < nf)%nat ->
  for_ nt (fun t => for_ na (fun a => for_ ns (fun s => for_ nf (fun f st => upd4 st s t a f (v s t a f))))) st0 s t a f = v s t a f.
Proof.
  intros s t a f Hs Ht Ha Hf.
  apply (for_at (fun st => st s t a f) (fun _ => v s t a f) t); auto.
  - intros i st Hi N. apply (for_frame (fun st => st s t a f)). intros i1 st1 _. apply (for_frame (fun st => st s t a f)). intros i2 st2 _.
    apply (for_frame (fun st => st s t a f)). intros i3 st3 _. apply upd4_off. auto.
  - intros st. apply (for_at (fun st => st s t a f) (fun _ => v s t a f) a); auto.
    + intros i1 st1 _ N. apply (for_frame (fun st => st s t a f)). intros i2 st2 _.
      apply (for_frame (fun st => st s t a f)). intros i3 st3 _. apply upd4_off. auto.
    + intros st1. apply (for_at (fun st => st s t a f) (fun _ => v s t a f) s); auto.
      * intros i2 st2 _ N. apply (for_frame (fun st => st s t a f)). intros i3 st3 _. apply upd4_off. auto.
      * intros st2. apply (for_at (fun st => st s t a f) (fun _ => v s t a f) f); auto.
        -- intros i3 st3 _ N. apply upd4_off. auto.
        -- intros st3. apply upd4_at.
Qed.

Definition ok_or {A} (d : A) (r : res A) : A := match r with Ok v => v | Raise _ => d end.
Section Dde.
  Variables (b : cube) (ext : arr2 R) (g : arr R).
  Hypothesis (Hl : (2 <= b_lw b)%nat) (Hm : (2 <= b_mh b)%nat) (Hn : (2 <= b_nud b)%nat) (HI : increasing (b_nud b) g).
  Definition point l m pa pel pem asl asm f : res (arr RC) :=
    beam_point b (ext 0 0)%nat (ext 0 1)%nat (ext 1 0)%nat (ext 1 1)%nat l m (sin pa) (cos pa) pel pem asl asm (freq_grid_interp (b_nud b) g f).
  Definition pos_l l m sc pel pem pa asl := axis_pos (b_lw b) (ext 0 0)%nat (ext 0 1)%nat (beam_l l m sc pel pem pa asl).
  Definition pos_m l m sc pel pem pa asm := axis_pos (b_mh b) (ext 1 0)%nat (ext 1 1)%nat (beam_m l m sc pel pem pa asm).
  Lemma point_ok l m pa pel pem asl asm f : exists v sc w k, point l m pa pel pem asl asm f = Ok v /\ freq_plane (b_nud b) g f sc w k /\ (S k < b_nud b)%nat /\
    forall c, v c = with_amp (tri_amp b (pos_l l m sc pel pem pa asl) (pos_m l m sc pel pem pa asm) w k c) (tri_val b (pos_l l m sc pel pem pa asl) (pos_m l m sc pel pem pa asm) w k c).
  Proof.
    destruct (freq_grid_spec (b_nud b) g f Hn HI) as (sc & w & k & E & P & Hk). unfold point. rewrite E.
    destruct (beam_point_ok b (ext 0 0)%nat (ext 0 1)%nat (ext 1 0)%nat (ext 1 1)%nat l m pa pel pem asl asm sc w k Hl Hm Hk) as (v & Ev & Hv).
    exists v, sc, w, k. auto.
  Qed.
  Lemma dde_ok nsrc lm nt na pa pe asc nf fr : exists out, beam_cube_dde b ext (b_nud b) g nsrc lm nt na pa pe asc nf fr = Ok out /\
    forall s t a f, (s < nsrc)%nat -> (t < nt)%nat -> (a < na)%nat -> (f < nf)%nat ->
      Ok (out s t a f) = point (lm s 0%nat) (lm s 1%nat) (pa t a) (pe t a f 0%nat) (pe t a f 1%nat) (asc a f 0%nat) (asc a f 1%nat) (fr f).
  Proof.
    unfold beam_cube_dde. rewrite !(proj2 (Nat.ltb_ge _ _)) by auto. cbn [orb].
    set (v := fun s t a f => ok_or (fun _ => c0) (point (lm s 0%nat) (lm s 1%nat) (pa t a) (pe t a f 0%nat) (pe t a f 1%nat) (asc a f 0%nat) (asc a f 1%nat) (fr f))).
    assert (V : forall s t a f, point (lm s 0%nat) (lm s 1%nat) (pa t a) (pe t a f 0%nat) (pe t a f 1%nat) (asc a f 0%nat) (asc a f 1%nat) (fr f) = Ok (v s t a f)).
    { intros s t a f. unfold v. destruct (point_ok (lm s 0%nat) (lm s 1%nat) (pa t a) (pe t a f 0%nat) (pe t a f 1%nat) (asc a f 0%nat) (asc a f 1%nat) (fr f)) as (v' & _ & _ & _ & -> & _). reflexivity. }
    rewrite (forM_pure nt _ (fun t => for_ na (fun a => for_ nsrc (fun s => for_ nf (fun f st => upd4 st s t a f (v s t a f)))))).
    - eexists. split; [reflexivity|]. intros s t a f Hs Ht Ha Hf. rewrite fill4 by auto. now rewrite V.
    - intros t st _. apply forM_pure. intros a st1 _. apply forM_pure. intros s st2 _. apply forM_pure. intros f st3 _.
      fold (point (lm s 0%nat) (lm s 1%nat) (pa t a) (pe t a f 0%nat) (pe t a f 1%nat) (asc a f 0%nat) (asc a f 1%nat) (fr f)). rewrite V. reflexivity.
  Qed.
  Lemma dde_value nsrc lm nt na pa pe asc nf fr : exists out, beam_cube_dde b ext (b_nud b) g nsrc lm nt na pa pe asc nf fr = Ok out /\
    forall s t a f c, (s < nsrc)%nat -> (t < nt)%nat -> (a < na)%nat -> (f < nf)%nat -> exists sc w k, freq_plane (b_nud b) g (fr f) sc w k /\ (S k < b_nud b)%nat /\
      let x := axis_pos (b_lw b) (ext 0 0)%nat (ext 0 1)%nat (beam_l (lm s 0%nat) (lm s 1%nat) sc (pe t a f 0%nat) (pe t a f 1%nat) (pa t a) (asc a f 0%nat)) in
      let y := axis_pos (b_mh b) (ext 1 0)%nat (ext 1 1)%nat (beam_m (lm s 0%nat) (lm s 1%nat) sc (pe t a f 0%nat) (pe t a f 1%nat) (pa t a) (asc a f 1%nat)) in
      out s t a f c = with_amp (tri_amp b x y w k c) (tri_val b x y w k c).
  Proof.
    destruct (dde_ok nsrc lm nt na pa pe asc nf fr) as (out & E & H). exists out. split; auto. intros s t a f c Hs Ht Ha Hf.
    specialize (H s t a f Hs Ht Ha Hf).
    destruct (point_ok (lm s 0%nat) (lm s 1%nat) (pa t a) (pe t a f 0%nat) (pe t a f 1%nat) (asc a f 0%nat) (asc a f 1%nat) (fr f)) as (v & sc & w & k & Ev & P & Hk & Hv).
    rewrite Ev in H. injection H as ->. exists sc, w, k. split; auto.
  Qed.
  (* chunks *)
  Lemma dde_chunks bc mc ec src times ants chans lm pa pe asc fr :
    (forall c, In c bc -> List.length c = 1%nat) -> (forall c, In c mc -> List.length c = 1%nat) -> (forall c, In c ec -> List.length c = 1%nat) ->
    exists out blocks, beam_cube_dde b ext (b_nud b) g (list_sum src) lm (list_sum times) (list_sum ants) pa pe asc (list_sum chans) fr = Ok out /\
      dask_beam_cube_dde bc mc ec src times ants chans b ext (b_nud b) g lm pa pe asc fr = Ok blocks /\
      forall s t a f, (s < list_sum src)%nat -> (t < list_sum times)%nat -> (a < list_sum ants)%nat -> (f < list_sum chans)%nat -> blocks s t a f = Ok (out s t a f).
  Proof.
    intros B1 B2 B3. destruct (dde_ok (list_sum src) lm (list_sum times) (list_sum ants) pa pe asc (list_sum chans) fr) as (out & E & H).
    exists out. unfold dask_beam_cube_dde.
    assert (F : forall l, (forall c : list nat, In c l -> List.length c = 1%nat) -> forallb single l = true).
    { intros l Hc. apply forallb_forall. intros c Hin. apply Nat.eqb_eq. auto. }
    rewrite !F by auto. cbn [negb]. eexists. split; [exact E|]. split; [reflexivity|]. intros s t a f Hs Ht Ha Hf. cbv beta.
    destruct (locate 0 src s) as [s0 ns] eqn:Es. destruct (locate 0 times t) as [t0 nt] eqn:Et.
    destruct (locate 0 ants a) as [a0 na] eqn:Ea. destruct (locate 0 chans f) as [f0 nf] eqn:Ef.
    apply locate_spec in Es, Et, Ea, Ef; try lia.
    destruct (dde_ok ns (fun i => lm (s0 + i)%nat) nt na (fun i j => pa (t0 + i)%nat (a0 + j)%nat)
      (fun i j k => pe (t0 + i)%nat (a0 + j)%nat (f0 + k)%nat) (fun j k => asc (a0 + j)%nat (f0 + k)%nat) nf (fun k => fr (f0 + k)%nat)) as (blk & Eb & Hb).
    rewrite Eb. cbn [bind]. rewrite H by auto. rewrite Hb by lia.
    replace (s0 + (s - s0))%nat with s by lia. replace (t0 + (t - t0))%nat with t by lia.
    replace (a0 + (a - a0))%nat with a by lia. replace (f0 + (f - f0))%nat with f by lia. reflexivity.
  Qed.
End Dde.
Lemma dde_small b ext nmap g nsrc lm nt na pa pe asc nf fr : (b_lw b < 2 \/ b_mh b < 2 \/ b_nud b < 2)%nat ->
  beam_cube_dde b ext nmap g nsrc lm nt na pa pe asc nf fr = Raise ValueError.
Proof.
  intros H. unfold beam_cube_dde. destruct (Nat.ltb_spec (b_lw b) 2), (Nat.ltb_spec (b_mh b) 2), (Nat.ltb_spec (b_nud b) 2); cbn; auto. lia.
Qed.
Lemma dask_chunked bc mc ec src times ants chans b ext nmap g lm pa pe asc fr :
  (exists c, (In c bc \/ In c mc \/ In c ec) /\ List.length c <> 1%nat) ->
  dask_beam_cube_dde bc mc ec src times ants chans b ext nmap g lm pa pe asc fr = Raise ValueError.
Proof.
  intros (c & Hin & Hc). unfold dask_beam_cube_dde.
  assert (F : forall l, In c l -> forallb single l = false).
  { intros l Hl. destruct (forallb single l) eqn:E; auto. exfalso. rewrite forallb_forall in E. specialize (E c Hl). apply Nat.eqb_eq in E. auto. }
  destruct (forallb single bc) eqn:E1; cbn [negb]; auto. destruct (forallb single mc) eqn:E2; cbn [negb]; auto. destruct (forallb single ec) eqn:E3; cbn [negb]; auto.
  destruct Hin as [A|[A|A]]; apply F in A; congruence.
Qed.
(* a frequency map longer than the cube *)
Lemma accumulate_cases b l m k w st : (exists st', accumulate b l m k w st = Ok st') \/ accumulate b l m k w st = Raise IndexError.
Proof. unfold accumulate, cube_get. destruct (_ && _)%bool; cbn; eauto. Qed.
Lemma dde_long_map b ext nmap g lm pa pe asc fr : (2 <= b_lw b)%nat -> (2 <= b_mh b)%nat -> (2 <= b_nud b)%nat -> (b_nud b < nmap)%nat -> increasing nmap g ->
  g (nmap - 1)%nat <= fr 0%nat -> beam_cube_dde b ext nmap g 1 lm 1 1 pa pe asc 1 fr = Raise IndexError.
Proof.
  intros Hl Hm Hn Hg HI Hf. destruct (freq_grid_spec nmap g (fr 0%nat)) as (sc & w & k & E & P & Hk); [lia|auto|].
  assert (Ek : k = (nmap - 2)%nat).
  { destruct (freq_plane_unique nmap g (fr 0%nat) sc w k (fr 0%nat / g (nmap - 1)%nat) 0 (nmap - 2)) as (_ & _ & Z); auto. lia. now apply above. }
  unfold beam_cube_dde. rewrite !(proj2 (Nat.ltb_ge _ _)) by auto. cbn [orb forM bind]. rewrite E. unfold beam_point. cbv zeta.
  assert (Z : forall l m w st, accumulate b l m (Z.of_nat k + 1) w st = Raise IndexError).
  { intros l m w' st. unfold accumulate, cube_get, in_axis. replace (Z.of_nat k + 1 <? Z.of_nat (b_nud b))%Z with false by (symmetry; apply Z.ltb_ge; lia).
    rewrite !andb_false_r. reflexivity. }
  do 4 (match goal with |- context [accumulate ?b ?l ?m ?k ?w ?st] => destruct (accumulate_cases b l m k w st) as [(? & ->)| ->]; [cbn [bind]|reflexivity] end).
  rewrite Z. reflexivity.
Qed.

(* --- bounds --- *)
Lemma csum_le n (f g : nat -> R) : (forall i, (i < n)%nat -> f i <= g i) -> csum (K := RR) n f <= csum (K := RR) n g.
Proof.
  induction n as [|n IH]; intros H; cbn [csum]; [apply Rle_refl|]. cbn [cadd RR].
  apply Rplus_le_compat; [apply IH; intros; apply H; lia|apply H; lia].
Qed.
Lemma hat_sum n x : (1 <= n)%nat -> 0 <= x <= INR n - 1 -> csum (K := RR) n (fun i => hat (x - INR i)) = 1.
Proof.
  intros Hn Hx. destruct (spot_of n x Hn Hx) as (k & _ & Sk & _). destruct rr_scale_facts as (F1 & F2 & F3).
  transitivity (csum (K := RR) n (fun i => Rmult (hat (x - INR i)) 1)). { apply (csum_ext (K := RR)). intros i _. now rewrite Rmult_1_r. }
  rewrite (axis_sum RR_laws Rmult F1 n x k (fun _ => 1)) by auto. cbn [cadd RR]. change (@eq R ((1 - (x - INR k)) * 1 + (x - INR k) * 1) 1). ring.
Qed.
Definition rtri (lw mh : nat) x y w k (B : nat -> nat -> nat -> R) : R := tri (K := RR) Rmult lw mh x y w k B.
Lemma rtri_const lw mh x y w k h : (1 <= lw)%nat -> (1 <= mh)%nat -> 0 <= x <= INR lw - 1 -> 0 <= y <= INR mh - 1 -> rtri lw mh x y w k (fun _ _ _ => h) = h.
Proof.
  intros H1 H2 Hx Hy. unfold rtri, tri.
  transitivity (csum (K := RR) lw (fun i => cmul (c := RR) (hat (x - INR i)) h)).
  - apply (csum_ext (K := RR)). intros i _.
    transitivity (csum (K := RR) mh (fun j => cmul (c := RR) (hat (y - INR j)) (hat (x - INR i) * h))).
    + apply (csum_ext (K := RR)). intros j _. cbn [cadd cmul RR]. match goal with |- ?u = ?v => change (@eq R u v) end. ring.
    + rewrite (csum_mul_r RR_laws). rewrite hat_sum by auto. cbn [cmul RR]. apply Rmult_1_l.
  - rewrite (csum_mul_r RR_laws). rewrite hat_sum by auto. cbn [cmul RR]. apply Rmult_1_l.
Qed.
Lemma rtri_le lw mh x y w k B B' : 0 <= w <= 1 -> (forall i j p, (i < lw)%nat -> (j < mh)%nat -> (p = k \/ p = S k) -> B i j p <= B' i j p) -> rtri lw mh x y w k B <= rtri lw mh x y w k B'.
Proof.
  intros Hw H. unfold rtri, tri. apply csum_le. intros i Hi. apply csum_le. intros j Hj. cbn [cadd RR].
  apply Rmult_le_compat_l; [apply Rmult_le_pos; apply hat_pos|]. apply Rplus_le_compat; apply Rmult_le_compat_l; try lra; apply H; auto.
Qed.
Lemma cabs_pos z : 0 <= cabs z. Proof. apply sqrt_pos. Qed.
Lemma cabs_scale r z : 0 <= r -> cabs (cmul (ofR r) z) = r * cabs z.
Proof.
  intros H. unfold cabs. replace (norm2 (cmul (ofR r) z)) with (r * r * norm2 z) by (destruct z; unfold norm2; cbn; ring).
  rewrite sqrt_mult_alt by nra. rewrite sqrt_square by auto. reflexivity.
Qed.
Lemma with_amp_abs A z : 0 <= A -> z <> c0 -> cabs (with_amp A z) = A.
Proof.
  intros HA Hz. unfold with_amp. destruct (Req_EM_T (cabs z) 0) as [E|E]; [apply cabs_0 in E; contradiction|].
  pose proof (cabs_pos z). rewrite cabs_scale; [field; auto|]. apply Rmult_le_pos; auto. left. apply Rinv_0_lt_compat. lra.
Qed.
Lemma with_amp_0 A z : z = c0 -> with_amp A z = c0.
Proof. intros ->. unfold with_amp. destruct (Req_EM_T (cabs c0) 0) as [E|E]; auto. exfalso. apply E. unfold cabs, norm2. cbn. replace (0 * 0 + 0 * 0) with 0 by ring. apply sqrt_0. Qed.
Lemma with_amp_self z : with_amp (cabs z) z = z.
Proof.
  unfold with_amp. destruct (Req_EM_T (cabs z) 0) as [E|E]; [symmetry; now apply cabs_0|].
  replace (cabs z / cabs z) with 1 by (field; auto). rc.
Qed.
Lemma tri_amp_between b x y w k c lo hi : (1 <= b_lw b)%nat -> (1 <= b_mh b)%nat -> (S k < b_nud b)%nat -> 0 <= x <= INR (b_lw b) - 1 -> 0 <= y <= INR (b_mh b) - 1 -> 0 <= w <= 1 ->
  (forall i j p, (i < b_lw b)%nat -> (j < b_mh b)%nat -> (p < b_nud b)%nat -> lo <= cabs (b_at b i j p c) <= hi) -> lo <= tri_amp b x y w k c <= hi.
Proof.
  intros H1 H2 Hk Hx Hy Hw H. unfold tri_amp. split.
  - rewrite <- (rtri_const (b_lw b) (b_mh b) x y w k lo) at 1 by auto. apply rtri_le; auto. intros i j p Hi Hj [->| ->]; apply H; auto; lia.
  - rewrite <- (rtri_const (b_lw b) (b_mh b) x y w k hi) by auto. apply rtri_le; auto. intros i j p Hi Hj [->| ->]; apply H; auto; lia.
Qed.
Lemma tri_amp_pos b x y w k c : 0 <= w <= 1 -> 0 <= tri_amp b x y w k c.
Proof.
  intros Hw. unfold tri_amp, tri.
  assert (Z : forall n, csum (K := RR) n (fun _ => 0) = 0) by (induction n; cbn; [auto|rewrite IHn; apply Rplus_0_r]).
  rewrite <- (Z (b_lw b)). apply csum_le. intros i _. rewrite <- (Z (b_mh b)). apply csum_le. intros j _. cbn [cadd RR].
  pose proof (hat_pos (x - INR i)). pose proof (hat_pos (y - INR j)). pose proof (cabs_pos (b_at b i j k c)). pose proof (cabs_pos (b_at b i j (S k) c)).
  apply Rmult_le_pos; [apply Rmult_le_pos; auto|]. apply Rplus_le_le_0_compat; apply Rmult_le_pos; lra.
Qed.
(* at a node *)
Lemma spot_node n i : (i < n)%nat -> spot n (INR i) i.
Proof. intros H. constructor; auto; try lra. assert (H' : (S i <= n)%nat) by lia. apply le_INR in H'. rewrite S_INR in H'. lra. Qed.
Section Node.
  Context {K : cops} (L : claws K) (scale : R -> K -> K).
  Hypothesis scale_0 : forall z, scale 0 z = c0.
  Hypothesis scale_1 : forall z, scale 1 z = z.
  Hypothesis scale_add : forall r a b, scale r (cadd a b) = cadd (scale r a) (scale r b).
  Hypothesis scale_mul : forall r q z, scale r (scale q z) = scale (r * q) z.
  Lemma tri_node lw mh i j w k (B : nat -> nat -> nat -> K) : (i < lw)%nat -> (j < mh)%nat ->
    tri scale lw mh (INR i) (INR j) w k B = cadd (scale w (B i j k)) (scale (1 - w) (B i j (S k))).
  Proof.
    intros Hi Hj. rewrite (tri_eight L scale scale_0 scale_add scale_mul lw mh _ _ w k i j) by now apply spot_node.
    cbv zeta. replace (INR i - INR i) with 0 by ring. replace (INR j - INR j) with 0 by ring.
    replace ((1 - 0) * (1 - 0) * w) with w by ring. replace ((1 - 0) * (1 - 0) * (1 - w)) with (1 - w) by ring.
    replace (0 * (1 - 0) * w) with 0 by ring. replace ((1 - 0) * 0 * w) with 0 by ring. replace (0 * 0 * w) with 0 by ring.
    replace (0 * (1 - 0) * (1 - w)) with 0 by ring. replace ((1 - 0) * 0 * (1 - w)) with 0 by ring. replace (0 * 0 * (1 - w)) with 0 by ring.
    rewrite !scale_0, !(add_0_r L). reflexivity.
  Qed.
  Lemma tri_node1 lw mh i j k (B : nat -> nat -> nat -> K) : (i < lw)%nat -> (j < mh)%nat -> tri scale lw mh (INR i) (INR j) 1 k B = B i j k.
  Proof. intros. rewrite tri_node by auto. rewrite scale_1. replace (1 - 1) with 0 by ring. now rewrite scale_0, (add_0_r L). Qed.
  Lemma tri_node0 lw mh i j k (B : nat -> nat -> nat -> K) : (i < lw)%nat -> (j < mh)%nat -> tri scale lw mh (INR i) (INR j) 0 k B = B i j (S k).
  Proof. intros. rewrite tri_node by auto. replace (1 - 0) with 1 by ring. rewrite scale_1, scale_0. apply (Radd_0_l (law_ring K L)). Qed.
End Node.
Lemma amp_node b i j w k p c : (i < b_lw b)%nat -> (j < b_mh b)%nat -> (w = 1 /\ p = k \/ w = 0 /\ p = S k) ->
  with_amp (tri_amp b (INR i) (INR j) w k c) (tri_val b (INR i) (INR j) w k c) = b_at b i j p c.
Proof.
  intros Hi Hj H. destruct rr_scale_facts as (F1 & F2 & F3). destruct rc_scale_facts as (G1 & G2 & G3).
  assert (F4 : forall z : RR, Rmult 1 z = z) by (intros z; apply Rmult_1_l).
  assert (G4 : forall z : RC, cmul (ofR 1) z = z) by (intros z; rc).
  unfold tri_amp, tri_val. destruct H as [[-> ->]|[-> ->]].
  - rewrite (tri_node1 RR_laws Rmult F1 F4 F2 F3) by auto. rewrite (tri_node1 RC_laws (fun r z => cmul (ofR r) z) G1 G4 G2 G3) by auto. apply with_amp_self.
  - rewrite (tri_node0 RR_laws Rmult F1 F4 F2 F3) by auto. rewrite (tri_node0 RC_laws (fun r z => cmul (ofR r) z) G1 G4 G2 G3) by auto. apply with_amp_self.
Qed.
Lemma plane_node n g p sc w k : (2 <= n)%nat -> increasing n g -> 0 < g 0%nat -> (p < n)%nat -> freq_plane n g (g p) sc w k -> sc = 1 /\ (w = 1 /\ p = k \/ w = 0 /\ p = S k).
Proof.
  intros Hn HI H0 Hp H. pose proof (increasing_le n g 0 p HI ltac:(lia) Hp). destruct (Nat.eq_dec (S p) n) as [E|E].
  - destruct (freq_plane_unique n g (g p) sc w k (g p / g (n - 1)%nat) 0 (n - 2)) as (-> & -> & ->); auto.
    + apply above. replace (n - 1)%nat with p by lia. lra.
    + replace (n - 1)%nat with p by lia. split; [field; lra|]. right. split; auto. lia.
  - pose proof (HI p ltac:(lia)). destruct (freq_plane_unique n g (g p) sc w k 1 ((g (S p) - g p) / (g (S p) - g p)) p) as (-> & -> & ->); auto.
    + apply within; [lia|lra].
    + split; auto. left. split; auto. field. lra.
Qed.
Lemma dde_bounds b ext g nsrc lm nt na pa pe asc nf fr : (2 <= b_lw b)%nat -> (2 <= b_mh b)%nat -> (2 <= b_nud b)%nat -> increasing (b_nud b) g ->
  exists out, beam_cube_dde b ext (b_nud b) g nsrc lm nt na pa pe asc nf fr = Ok out /\
  forall s t a f c lo hi, (s < nsrc)%nat -> (t < nt)%nat -> (a < na)%nat -> (f < nf)%nat ->
    (forall i j p, (i < b_lw b)%nat -> (j < b_mh b)%nat -> (p < b_nud b)%nat -> lo <= cabs (b_at b i j p c) <= hi) ->
    cabs (out s t a f c) <= hi /\ (out s t a f c = c0 \/ lo <= cabs (out s t a f c)).
Proof.
  intros Hl Hm Hn HI. destruct (dde_value b ext g Hl Hm Hn HI nsrc lm nt na pa pe asc nf fr) as (out & E & H). exists out. split; auto.
  intros s t a f c lo hi Hs Ht Ha Hf HB. destruct (H s t a f c Hs Ht Ha Hf) as (sc & w & k & P & Hk & V). cbv zeta in V. rewrite V. clear V.
  match goal with |- context [tri_amp b ?x ?y w k c] => set (xx := x); set (yy := y) end.
  destruct (freq_plane_facts _ _ _ _ _ _ Hn HI P) as (Hw & _).
  assert (T : lo <= tri_amp b xx yy w k c <= hi) by (apply tri_amp_between; auto; try lia; apply axis_pos_range; lia).
  pose proof (tri_amp_pos b xx yy w k c Hw).
  destruct (Req_EM_T (cabs (tri_val b xx yy w k c)) 0) as [Z|Z].
  - apply cabs_0 in Z. rewrite (with_amp_0 _ _ Z). split; auto. unfold cabs, norm2. cbn. replace (0 * 0 + 0 * 0) with 0 by ring. rewrite sqrt_0. lra.
  - rewrite with_amp_abs; [split; [lra|right; lra]|auto|]. intros W. apply Z. rewrite W. unfold cabs, norm2. cbn. replace (0 * 0 + 0 * 0) with 0 by ring. apply sqrt_0.
Qed.
Lemma dde_node b ext g nsrc lm nt na pa pe asc nf fr : (2 <= b_lw b)%nat -> (2 <= b_mh b)%nat -> (2 <= b_nud b)%nat -> increasing (b_nud b) g -> 0 < g 0%nat ->
  exists out, beam_cube_dde b ext (b_nud b) g nsrc lm nt na pa pe asc nf fr = Ok out /\
  forall s t a f c i j p, (s < nsrc)%nat -> (t < nt)%nat -> (a < na)%nat -> (f < nf)%nat -> (i < b_lw b)%nat -> (j < b_mh b)%nat -> (p < b_nud b)%nat ->
    fr f = g p ->
    axis_pos (b_lw b) (ext 0 0)%nat (ext 0 1)%nat (beam_l (lm s 0%nat) (lm s 1%nat) 1 (pe t a f 0%nat) (pe t a f 1%nat) (pa t a) (asc a f 0%nat)) = INR i ->
    axis_pos (b_mh b) (ext 1 0)%nat (ext 1 1)%nat (beam_m (lm s 0%nat) (lm s 1%nat) 1 (pe t a f 0%nat) (pe t a f 1%nat) (pa t a) (asc a f 1%nat)) = INR j ->
    out s t a f c = b_at b i j p c.
Proof.
  intros Hl Hm Hn HI H0. destruct (dde_value b ext g Hl Hm Hn HI nsrc lm nt na pa pe asc nf fr) as (out & E & H). exists out. split; auto.
  intros s t a f c i j p Hs Ht Ha Hf Hi Hj Hp Ef Ex Ey. destruct (H s t a f c Hs Ht Ha Hf) as (sc & w & k & P & Hk & V). cbv zeta in V.
  rewrite Ef in P. destruct (plane_node _ _ _ _ _ _ Hn HI H0 Hp P) as (-> & C). rewrite V, Ex, Ey. now apply amp_node.
Qed.
Lemma grid_facts n g f sc w k : (2 <= n)%nat -> increasing n g -> freq_grid_interp n g f = (sc, w, k) ->
  (0 <= k)%Z /\ (k + 1 < Z.of_nat n)%Z /\ 0 <= w <= 1 /\ w * g (Z.to_nat k) + (1 - w) * g (Z.to_nat (k + 1)) = clamp (g 0%nat) (g (n - 1)%nat) f /\
  (0 < g 0%nat -> sc * clamp (g 0%nat) (g (n - 1)%nat) f = f) /\ (g 0%nat <= f <= g (n - 1)%nat -> 0 < g 0%nat -> sc = 1).
Proof.
  intros Hn HI E. destruct (freq_grid_spec n g f Hn HI) as (sc' & w' & k' & E' & P & Hk). rewrite E in E'. injection E' as -> -> ->.
  destruct (freq_plane_facts _ _ _ _ _ _ Hn HI P) as (A & B & C & D). rewrite Nat2Z.id. replace (Z.to_nat (Z.of_nat k' + 1)) with (S k') by lia.
  split; [lia|]. split; [lia|]. auto.
Qed.
