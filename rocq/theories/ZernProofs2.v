(* Proofs for C85: polynomial values, the Jones terms and chunks *)
From Coq Require Import Reals Lra.
From Verif Require Import Prelude PreludeFacts LoopFacts CRing CplxR DftModel DftProofs ZernModel ZernSpec ZernProofs.
Open Scope R_scope.

Lemma order_half n m : zernike_order n m -> (Z.abs_nat m <= n)%nat /\ (exists h, n - Z.abs_nat m = 2 * h)%nat.
Proof.
  intros (B & h & P). split; [lia|]. destruct (Z_le_dec 0 m).
  - exists (Z.to_nat h). lia.
  - exists (Z.to_nat (Z.of_nat n - h)). lia.
Qed.
Lemma zernike_ok j rho phi n m : noll j = (n, m) -> zernike j rho phi = Ok (zern n m rho phi).
Proof.
  intros E. unfold zernike, zern. destruct (Rlt_dec 1 rho) as [L|L]; auto. rewrite E.
  destruct (order_half n m (noll_valid _ _ _ E)) as (B & H). pose proof (zernike_rad_ok n (Z.abs_nat m) rho B H) as Z.
  destruct (Z.ltb_spec 0 m) as [P|P].
  - replace (Z.ltb m 0) with false by (symmetry; apply Z.ltb_ge; lia). replace m with (Z.of_nat (Z.abs_nat m)) at 1 by lia. rewrite Z. cbn [bind].
    rewrite Z.abs_eq by lia. reflexivity.
  - destruct (Z.ltb_spec m 0) as [Q|Q].
    + replace (- m)%Z with (Z.of_nat (Z.abs_nat m)) by lia. rewrite Z. cbn [bind]. rewrite Z.abs_neq by lia. rewrite opp_IZR. reflexivity.
    + replace m with 0%Z in * by lia. cbn [Z.abs_nat Z.abs Z.of_nat] in *. rewrite Z. f_equal. rewrite Rmult_0_l, cos_0, Rmult_1_r. reflexivity.
Qed.

(* polar coordinates *)
Lemma sqrt_scale x y : x <> 0 -> sqrt (y ^ 2 + x ^ 2) = Rabs x * sqrt (1 + (y / x) ^ 2).
Proof.
  intros H. replace (y ^ 2 + x ^ 2) with (x ^ 2 * (1 + (y / x) ^ 2)) by (field; auto).
  rewrite sqrt_mult_alt by nra. f_equal. rewrite <- (sqrt_Rsqr_abs x). f_equal. unfold Rsqr. ring.
Qed.
Lemma arctan2_polar y x : sqrt (y ^ 2 + x ^ 2) * cos (arctan2 y x) = x /\ sqrt (y ^ 2 + x ^ 2) * sin (arctan2 y x) = y.
Proof.
  assert (P : forall u, 0 < sqrt (1 + u ^ 2)) by (intros u; apply sqrt_lt_R0; nra).
  assert (C : forall u, cos (atan u) = 1 / sqrt (1 + u ^ 2)) by (intros u; rewrite cos_atan; do 3 f_equal; unfold Rsqr; ring).
  assert (S : forall u, sin (atan u) = u / sqrt (1 + u ^ 2)) by (intros u; rewrite sin_atan; do 3 f_equal; unfold Rsqr; ring).
  unfold arctan2. destruct (Rlt_dec 0 x) as [L|L].
  - rewrite sqrt_scale by lra. rewrite (Rabs_right x) by lra. rewrite C, S. specialize (P (y / x)). split; field; lra.
  - destruct (Rlt_dec x 0) as [L'|L'].
    + rewrite sqrt_scale by lra. rewrite (Rabs_left x) by lra. destruct (Rlt_dec y 0).
      * unfold Rminus. rewrite cos_plus, sin_plus, cos_neg, sin_neg, cos_PI, sin_PI, C, S. specialize (P (y / x)). split; field; lra.
      * rewrite neg_cos, neg_sin, C, S. specialize (P (y / x)). split; field; lra.
    + assert (x = 0) as -> by lra. replace (y ^ 2 + 0 ^ 2) with (Rsqr y) by (unfold Rsqr; ring). rewrite sqrt_Rsqr_abs.
      destruct (Rlt_dec 0 y).
      * rewrite cos_PI2, sin_PI2, Rabs_right by lra. split; ring.
      * destruct (Rlt_dec y 0).
        -- rewrite cos_neg, sin_neg, cos_PI2, sin_PI2, Rabs_left by lra. split; ring.
        -- assert (y = 0) as -> by lra. rewrite Rabs_R0. split; ring.
Qed.

Lemma upd5_at {A} (x : nat -> nat -> nat -> nat -> nat -> A) s t a c co v : upd5 x s t a c co v s t a c co = v.
Proof. unfold upd5. now rewrite !Nat.eqb_refl. Qed.
Lemma upd5_off {A} (x : nat -> nat -> nat -> nat -> nat -> A) s t a c co v s' t' a' c' co' : (s' <> s \/ t' <> t \/ a' <> a \/ c' <> c \/ co' <> co) ->
  upd5 x s t a c co v s' t' a' c' co' = x s' t' a' c' co'.
Proof.
  intros H. unfold upd5. destruct (Nat.eqb_spec s' s), (Nat.eqb_spec t' t), (Nat.eqb_spec a' a), (Nat.eqb_spec c' c), (Nat.eqb_spec co' co); cbn; auto. lia.
Qed.
Lemma fill5 {A} ns nt na nc nk (v : nat -> nat -> nat -> nat -> nat -> A) st0 :
  forall s t a c co, (s < ns)%nat -> (t < nt)%nat -> (a < na)%nat -> (c < nc)%nat -> (co < nk)%nat ->
  for_ ns (fun s => for_ nt (fun t => for_ na (fun a => for_ nc (fun c => for_ nk (fun co st => upd5 st s t a c co (v s t a c co)))))) st0 s t a c co = v s t a c co.
Proof.
  intros s t a c co Hs Ht Ha Hc Hk. set (obs := fun st : nat -> nat -> nat -> nat -> nat -> A => st s t a c co).
  apply (for_at obs (fun _ => v s t a c co) s); auto.
  - intros i st Hi N. do 4 (apply (for_frame obs); intros ? ? _). apply upd5_off. auto.
  - intros st. apply (for_at obs (fun _ => v s t a c co) t); auto.
    + intros i1 st1 _ N. do 3 (apply (for_frame obs); intros ? ? _). apply upd5_off. auto.
    + intros st1. apply (for_at obs (fun _ => v s t a c co) a); auto.
      * intros i2 st2 _ N. do 2 (apply (for_frame obs); intros ? ? _). apply upd5_off. auto.
      * intros st2. apply (for_at obs (fun _ => v s t a c co) c); auto.
        -- intros i3 st3 _ N. apply (for_frame obs); intros ? ? _. apply upd5_off. auto.
        -- intros st3. apply (for_at obs (fun _ => v s t a c co) co); auto.
           ++ intros i4 st4 _ N. apply upd5_off. auto 6.
           ++ intros st4. apply upd5_at.
Qed.
Definition term npoly (coords : nat -> nat -> nat -> nat -> nat -> R) (coeffs : nat -> nat -> nat -> nat -> RC) (index : nat -> nat -> nat -> nat -> nat) s t a c co : RC :=
  csum npoly (fun p => cmul (coeffs a c co p) (ofR (let '(n, m) := noll (index a c co p) in zern n m (sqrt (coords 0%nat s t a c ^ 2 + coords 1%nat s t a c ^ 2)) (arctan2 (coords 0%nat s t a c) (coords 1%nat s t a c))))).
Lemma dde_ok ns nt na nc nk np coords coeffs index : exists out, zernike_dde ns nt na nc nk np coords coeffs index = Ok out /\
  forall s t a c co, (s < ns)%nat -> (t < nt)%nat -> (a < na)%nat -> (c < nc)%nat -> (co < nk)%nat -> out s t a c co = term np coords coeffs index s t a c co.
Proof.
  unfold zernike_dde.
  rewrite (forM_pure ns _ (fun s => for_ nt (fun t => for_ na (fun a => for_ nc (fun c => for_ nk (fun co st => upd5 st s t a c co (term np coords coeffs index s t a c co))))))).
  - eexists. split; [reflexivity|]. intros s t a c co Hs Ht Ha Hc Hk. now rewrite fill5.
  - intros s st _. apply forM_pure. intros t st1 _. apply forM_pure. intros a st2 _. apply forM_pure. intros c st3 _. unfold convert_coords. apply forM_pure. intros co st4 _.
    rewrite (forM_pure np _ (fun p acc => cadd acc (cmul (coeffs a c co p) (ofR (let '(n, m) := noll (index a c co p) in zern n m (sqrt (coords 0%nat s t a c ^ 2 + coords 1%nat s t a c ^ 2)) (arctan2 (coords 0%nat s t a c) (coords 1%nat s t a c))))))).
    + cbn [bind]. do 2 f_equal. rewrite (for_csum RC_laws (fun x : RC => x) (fun p => cmul (coeffs a c co p) (ofR (let '(n, m) := noll (index a c co p) in zern n m (sqrt (coords 0%nat s t a c ^ 2 + coords 1%nat s t a c ^ 2)) (arctan2 (coords 0%nat s t a c) (coords 1%nat s t a c)))))); auto.
      apply (Radd_0_l (law_ring RC RC_laws)).
    + intros p acc _. destruct (noll (index a c co p)) as [n m] eqn:E. rewrite (zernike_ok _ _ _ n m E). reflexivity.
Qed.
Lemma dask_ok src times ants chans corrs poly coords coeffs index s t a c co :
  (s < list_sum src)%nat -> (t < list_sum times)%nat -> (a < list_sum ants)%nat -> (c < list_sum chans)%nat -> (co < list_sum corrs)%nat ->
  dask_zernike_dde src times ants chans corrs poly coords coeffs index s t a c co = Ok (term (hd O poly) coords coeffs index s t a c co).
Proof.
  intros Hs Ht Ha Hc Hk. unfold dask_zernike_dde.
  destruct (locate 0 src s) as [s0 ns] eqn:Es. destruct (locate 0 times t) as [t0 nt] eqn:Et.
  destruct (locate 0 ants a) as [a0 na] eqn:Ea. destruct (locate 0 chans c) as [f0 nf] eqn:Ef. destruct (locate 0 corrs co) as [k0 nk] eqn:Ek.
  apply locate_spec in Es, Et, Ea, Ef, Ek; try lia.
  destruct (dde_ok ns nt na nf nk (hd O poly) (fun x i j k l => coords x (s0 + i)%nat (t0 + j)%nat (a0 + k)%nat (f0 + l)%nat)
    (fun i j k p => coeffs (a0 + i)%nat (f0 + j)%nat (k0 + k)%nat p) (fun i j k p => index (a0 + i)%nat (f0 + j)%nat (k0 + k)%nat p)) as (out & E & H).
  rewrite E. cbn [bind]. rewrite H by lia. unfold term.
  replace (s0 + (s - s0))%nat with s by lia. replace (t0 + (t - t0))%nat with t by lia.
  replace (a0 + (a - a0))%nat with a by lia. replace (f0 + (c - f0))%nat with c by lia. replace (k0 + (co - k0))%nat with co by lia. reflexivity.
Qed.
(* statements *)
Lemma dde_value ns nt na nc nk np coords coeffs index : exists out, zernike_dde ns nt na nc nk np coords coeffs index = Ok out /\
  forall s t a c co, (s < ns)%nat -> (t < nt)%nat -> (a < na)%nat -> (c < nc)%nat -> (co < nk)%nat -> exists rho phi,
    0 <= rho /\ coords 0%nat s t a c = rho * sin phi /\ coords 1%nat s t a c = rho * cos phi /\
    out s t a c co = csum np (fun p => cmul (coeffs a c co p) (ofR (zern (fst (noll (index a c co p))) (snd (noll (index a c co p))) rho phi))).
Proof.
  destruct (dde_ok ns nt na nc nk np coords coeffs index) as (out & E & H). exists out. split; auto. intros s t a c co Hs Ht Ha Hc Hk.
  exists (sqrt (coords 0%nat s t a c ^ 2 + coords 1%nat s t a c ^ 2)), (arctan2 (coords 0%nat s t a c) (coords 1%nat s t a c)).
  destruct (arctan2_polar (coords 0%nat s t a c) (coords 1%nat s t a c)) as [A B]. split; [apply sqrt_pos|]. split; [now rewrite B|]. split; [now rewrite A|].
  rewrite H by auto. unfold term. apply (csum_ext (K := RC)). intros p _. destruct (noll (index a c co p)); reflexivity.
Qed.
Lemma dde_chunks src times ants chans corrs np rest coords coeffs index :
  (exists out, zernike_dde (list_sum src) (list_sum times) (list_sum ants) (list_sum chans) (list_sum corrs) np coords coeffs index = Ok out /\
  forall s t a c co, (s < list_sum src)%nat -> (t < list_sum times)%nat -> (a < list_sum ants)%nat -> (c < list_sum chans)%nat -> (co < list_sum corrs)%nat ->
    dask_zernike_dde src times ants chans corrs (np :: rest) coords coeffs index s t a c co = Ok (out s t a c co)).
Proof.
  destruct (dde_ok (list_sum src) (list_sum times) (list_sum ants) (list_sum chans) (list_sum corrs) np coords coeffs index) as (out & E & H). exists out.
  split; auto. intros s t a c co Hs Ht Ha Hc Hk. rewrite dask_ok by auto. cbn [hd]. now rewrite H.
Qed.
Lemma zern_piston rho phi : rho <= 1 -> zern 0 0 rho phi = 1.
Proof.
  intros H. unfold zern. destruct (Rlt_dec 1 rho); [lra|]. unfold radial. cbn [Z.abs_nat Z.abs Z.ltb Z.compare Nat.sub Nat.div Nat.divmod fst csum binom Nat.mul]. cbn.
  rewrite Rmult_0_l, cos_0. ring.
Qed.
Lemma poly_chunks_lost : exists coords coeffs index out v,
  zernike_dde 1 1 1 1 1 2 coords coeffs index = Ok out /\ dask_zernike_dde [1%nat] [1%nat] [1%nat] [1%nat] [1%nat] [1%nat; 1%nat] coords coeffs index 0 0 0 0 0 = Ok v /\ v <> out 0%nat 0%nat 0%nat 0%nat 0%nat.
Proof.
  set (coords := fun _ _ _ _ _ : nat => 0). set (coeffs := fun _ _ _ _ : nat => (c1 : RC)). set (index := fun _ _ _ _ : nat => 0%nat).
  destruct (dde_ok 1 1 1 1 1 2 coords coeffs index) as (out & E & H).
  exists coords, coeffs, index, out. eexists. split; [exact E|]. split; [apply dask_ok; cbn; lia|]. rewrite H by lia. unfold term. cbn [hd csum].
  unfold coords, index. replace (0 ^ 2 + 0 ^ 2) with 0 by ring. rewrite sqrt_0.
  change (noll 0) with (0%nat, 0%Z). cbv beta iota. rewrite !zern_piston by lra. unfold coeffs.
  intros Z. apply (f_equal re) in Z. cbn in Z. lra.
Qed.
