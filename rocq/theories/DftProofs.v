From Coq Require Import Reals Lra String.
From Verif Require Import Prelude PreludeFacts CRing CplxR LoopFacts RimeModel RimeSpec DftModel DftSpec.
Open Scope R_scope.

Lemma rsum_ext n f g : (forall i, (i < n)%nat -> f i = g i) -> rsum n f = rsum n g.
Proof. unfold rsum. apply (csum_ext (K := RR)). Qed.

Lemma n1_pow l m : sqrt (1 - l ^ 2 - m ^ 2) - 1 = n1 l m.
Proof. unfold n1. f_equal. f_equal. ring. Qed.

Definition phase_of (constant : R) (lm uvw : arr2 R) (freq : arr R) (s r f : nat) : R :=
  constant * (lm s 0%nat * uvw r 0%nat + lm s 1%nat * uvw r 1%nat + n1 (lm s 0%nat) (lm s 1%nat) * uvw r 2%nat) * freq f.

Lemma truthy_false z : truthy z = false -> z = c0.
Proof.
  unfold truthy. destruct z as [x y]. cbn [fst snd]. destruct (Req_EM_T x 0) as [->|]; [|discriminate].
  destruct (Req_EM_T y 0) as [->|]; [reflexivity|discriminate].
Qed.

Lemma im_to_vis_body_value constant nrows nsrc nchan ncorr image uvw lm freq r f c :
  (r < nrows)%nat -> (f < nchan)%nat -> (c < ncorr)%nat ->
  im_to_vis_body constant nrows nsrc nchan ncorr image uvw lm freq r f c =
  csum nsrc (fun s => cmul (cis (phase_of constant lm uvw freq s r f)) (image s f c)).
Proof.
  intros Hr Hf Hc. unfold im_to_vis_body. set (tot := csum nsrc _).
  assert (FR : forall r' s' f' l n v, r' <> r -> (fun vis : arr3 RC => vis r f c)
      (for_ ncorr (fun c' vis => if truthy (image s' f' c') then upd3 vis r' f' c' (cadd (vis r' f' c') (cmul (cis (l * n)) (image s' f' c'))) else vis) v) = v r f c).
  { intros. apply (for_frame (fun vis : arr3 RC => vis r f c)). intros c' vis _. destruct (truthy _); auto. apply upd3_neq. auto. }
  rewrite (for_at (fun vis : arr3 RC => vis r f c) (fun x => cadd x tot) r); auto.
  - exact (Radd_0_l (law_ring RC RC_laws) tot).
  - intros r' vis Hr' Ne. cbv beta zeta. apply (for_frame (fun vis : arr3 RC => vis r f c)). intros s' vis1 _.
    apply (for_frame (fun vis : arr3 RC => vis r f c)). intros f' vis2 _. apply FR. auto.
  - intros vis. cbv beta zeta. unfold tot. apply (for_csum RC_laws (fun vis : arr3 RC => vis r f c)). intros s vis1 Hs.
    apply (for_at (fun vis : arr3 RC => vis r f c) (fun x => cadd x _) f); auto.
    + intros f' vis2 Hf' Ne. apply (for_frame (fun vis : arr3 RC => vis r f c)). intros c' vis3 _.
      destruct (truthy _); auto. apply upd3_neq. auto.
    + intros vis2. apply (for_at (fun vis : arr3 RC => vis r f c) (fun x => cadd x _) c); auto.
      * intros c' vis3 _ Ne. destruct (truthy _); auto. apply upd3_neq. auto.
      * intros vis3. destruct (truthy (image s f c)) eqn:E.
        -- rewrite upd3_eq. rewrite n1_pow. reflexivity.
        -- apply truthy_false in E. rewrite E. destruct (vis3 r f c), (cis (phase_of constant lm uvw freq s r f)). cbn. f_equal; ring.
Qed.

Lemma any_flag_spec ncorr fl : any_flag ncorr fl = true <-> exists c, (c < ncorr)%nat /\ fl c = true.
Proof.
  induction ncorr as [|n IH]; cbn.
  - split; [discriminate | intros (c & H & _); lia].
  - rewrite Bool.orb_true_iff, IH. split.
    + intros [(c & H & E)|E]; [exists c | exists n]; split; auto; lia.
    + intros (c & H & E). destruct (Nat.eq_dec c n) as [->|Ne]; auto. left. exists c. split; auto. lia.
Qed.

Lemma vis_to_im_body_value constant nrows nsrc nchan ncorr vis uvw lm freq flags s f c :
  (s < nsrc)%nat -> (f < nchan)%nat -> (c < ncorr)%nat ->
  vis_to_im_body constant nrows nsrc nchan ncorr vis uvw lm freq flags s f c =
  rsum nrows (fun r => if any_flag ncorr (flags r f) then 0
                       else re (cmul (cis (phase_of constant lm uvw freq s r f)) (vis r f c))).
Proof.
  intros Hs Hf Hc. unfold vis_to_im_body. set (tot := rsum nrows _).
  rewrite (for_at (fun img : arr3 R => img s f c) (fun x => x + tot) s); auto.
  - ring.
  - intros s' img _ Ne. cbv beta zeta. apply (for_frame (fun img : arr3 R => img s f c)). intros r' img1 _.
    apply (for_frame (fun img : arr3 R => img s f c)). intros f' img2 _. destruct (any_flag _ _); auto.
    apply (for_frame (fun img : arr3 R => img s f c)). intros c' img3 _. apply upd3_neq. auto.
  - intros img. cbv beta zeta. unfold tot, rsum. apply (for_csum (K := RR) RR_laws (fun img : arr3 R => img s f c)). intros r img1 Hr.
    apply (for_at (fun img : arr3 R => img s f c) (fun x => x + _) f); auto.
    + intros f' img2 _ Ne. destruct (any_flag _ _); auto.
      apply (for_frame (fun img : arr3 R => img s f c)). intros c' img3 _. apply upd3_neq. auto.
    + intros img2. destruct (any_flag ncorr (flags r f)); [ring|].
      apply (for_at (fun img : arr3 R => img s f c) (fun x => x + _) c); auto.
      * intros c' img3 _ Ne. apply upd3_neq. auto.
      * intros img3. rewrite upd3_eq. f_equal. rewrite n1_pow. reflexivity.
Qed.

Lemma phase_minus lm uvw freq s r f : phase_of minus_two_pi_over_c lm uvw freq s r f = - src_delay lm uvw freq s r f.
Proof. unfold phase_of, src_delay, delay, minus_two_pi_over_c, two_pi_over_c, light, lightspeed. field. Qed.
Lemma phase_plus lm uvw freq s r f : phase_of two_pi_over_c lm uvw freq s r f = src_delay lm uvw freq s r f.
Proof. unfold phase_of, src_delay, delay, two_pi_over_c, light, lightspeed. field. Qed.

Theorem im_to_vis_value nrows nsrc nchan ncorr image uvw lm freq conv e : im_sign conv e ->
  exists V, im_to_vis nrows nsrc nchan ncorr image uvw lm freq conv = Ok V /\
    forall r f c, (r < nrows)%nat -> (f < nchan)%nat -> (c < ncorr)%nat ->
      V r f c = csum nsrc (fun s => cmul (cis (e * src_delay lm uvw freq s r f)) (image s f c)).
Proof.
  intros [|]; (eexists; split; [reflexivity|]; intros r f c Hr Hf Hc; rewrite im_to_vis_body_value by auto;
    apply csum_ext; intros s Hs; rewrite ?phase_minus, ?phase_plus; do 2 f_equal; ring).
Qed.
Theorem im_to_vis_unknown nrows nsrc nchan ncorr image uvw lm freq conv : conv <> "fourier"%string -> conv <> "casa"%string ->
  im_to_vis nrows nsrc nchan ncorr image uvw lm freq conv = Raise ValueError.
Proof.
  intros A B. unfold im_to_vis, im_constant. destruct (String.eqb_spec conv "fourier"); [contradiction|].
  destruct (String.eqb_spec conv "casa"); [contradiction|]. reflexivity.
Qed.

Theorem vis_to_im_value nrows nsrc nchan ncorr vis W uvw lm freq flags conv e : im_sign conv e ->
  unflagged_part ncorr flags vis W ->
  exists x, vis_to_im nrows nsrc nchan ncorr true vis uvw lm freq flags conv = Ok x /\
    forall s f c, (s < nsrc)%nat -> (f < nchan)%nat -> (c < ncorr)%nat ->
      x s f c = rsum nrows (fun r => re (cmul (cconj (cis (e * src_delay lm uvw freq s r f))) (W r f c))).
Proof.
  intros He HW.
  assert (G : forall r f c k, (if any_flag ncorr (flags r f) then 0 else re (cmul k (vis r f c))) = re (cmul k (W r f c))).
  { intros r f c k. destruct (HW r f c) as (A & B). destruct (any_flag ncorr (flags r f)) eqn:E.
    - rewrite A by (now apply any_flag_spec). cbn. ring.
    - rewrite B; auto. intros X. apply any_flag_spec in X. congruence. }
  destruct He; (eexists; split; [reflexivity|]; intros s f c Hs Hf Hc; rewrite vis_to_im_body_value by auto;
    apply rsum_ext; intros r Hr; rewrite G, ?phase_minus, ?phase_plus; rewrite <- cis_opp; do 3 f_equal; ring).
Qed.

(* ---------- sums ---------- *)
Lemma rsum_add n f g : rsum n (fun i => f i + g i) = rsum n f + rsum n g.
Proof. unfold rsum. induction n as [|n IH]; cbn; [ring|]. cbn in IH. rewrite IH. ring. Qed.
Lemma rsum_scale n f k : rsum n (fun i => k * f i) = k * rsum n f.
Proof. unfold rsum. induction n as [|n IH]; cbn; [ring|]. cbn in IH. rewrite IH. ring. Qed.
Lemma rsum_scale_r n f k : rsum n (fun i => f i * k) = rsum n f * k.
Proof. rewrite Rmult_comm, <- rsum_scale. apply rsum_ext. intros. apply Rmult_comm. Qed.
Lemma rsum_0 n : rsum n (fun _ => 0) = 0.
Proof. unfold rsum. induction n as [|n IH]; cbn; auto. cbn in IH. rewrite IH. ring. Qed.
Lemma rsum_swap n m f : rsum n (fun i => rsum m (fun j => f i j)) = rsum m (fun j => rsum n (fun i => f i j)).
Proof.
  induction n as [|n IH].
  - cbn. symmetry. apply rsum_0.
  - change (rsum n (fun i => rsum m (fun j => f i j)) + rsum m (fun j => f n j) = rsum m (fun j => rsum n (fun i => f i j) + f n j)).
    rewrite rsum_add, IH. reflexivity.
Qed.
Lemma rsum_app n m f : rsum (n + m) f = rsum n f + rsum m (fun i => f (n + i)%nat).
Proof.
  induction m as [|m IH]. { rewrite Nat.add_0_r. cbn. ring. }
  rewrite Nat.add_succ_r. change (rsum (n + m) f + f (n + m)%nat = rsum n f + (rsum m (fun i => f (n + i)%nat) + f (n + m)%nat)).
  rewrite IH. ring.
Qed.
Lemma re_cmul_csum n (k : RC) (f : nat -> RC) : re (cmul k (csum n f)) = rsum n (fun i => re (cmul k (f i))).
Proof.
  induction n as [|n IH]; [cbn; ring|].
  change (rsum (S n) (fun i => re (cmul k (f i)))) with (rsum n (fun i => re (cmul k (f i))) + re (cmul k (f n))).
  rewrite <- IH. cbn. ring.
Qed.

Theorem adjoint nrows nsrc nchan ncorr uvw lm freq conv e flags V W (x : arr3 R) : im_sign conv e ->
  unflagged_part ncorr flags V W ->
  exists A y, im_to_vis nrows nsrc nchan ncorr (fun s f c => ofR (x s f c)) uvw lm freq conv = Ok A /\
    vis_to_im nrows nsrc nchan ncorr true V uvw lm freq flags conv = Ok y /\
    vis_inner nrows nchan ncorr W A = im_inner nsrc nchan ncorr y x.
Proof.
  intros He HW.
  destruct (im_to_vis_value nrows nsrc nchan ncorr (fun s f c => ofR (x s f c)) uvw lm freq conv e He) as (A & EA & VA).
  destruct (vis_to_im_value nrows nsrc nchan ncorr V W uvw lm freq flags conv e He HW) as (y & Ey & Vy).
  exists A, y. split; auto. split; auto. unfold vis_inner, im_inner.
  transitivity (rsum nrows (fun r => rsum nchan (fun f => rsum ncorr (fun c => rsum nsrc (fun s =>
    re (cmul (cconj (W r f c)) (cmul (cis (e * src_delay lm uvw freq s r f)) (ofR (x s f c)))))))))%R.
  { apply rsum_ext; intros r Hr. apply rsum_ext; intros f Hf. apply rsum_ext; intros c Hc.
    rewrite VA by auto. apply re_cmul_csum. }
  transitivity (rsum nsrc (fun s => rsum nchan (fun f => rsum ncorr (fun c => rsum nrows (fun r =>
    re (cmul (cconj (W r f c)) (cmul (cis (e * src_delay lm uvw freq s r f)) (ofR (x s f c)))))))))%R.
  { transitivity (rsum nchan (fun f => rsum ncorr (fun c => rsum nsrc (fun s => rsum nrows (fun r =>
      re (cmul (cconj (W r f c)) (cmul (cis (e * src_delay lm uvw freq s r f)) (ofR (x s f c)))))))))%R.
    - rewrite rsum_swap. apply rsum_ext; intros f Hf. rewrite rsum_swap. apply rsum_ext; intros c Hc. apply rsum_swap.
    - symmetry. rewrite rsum_swap. apply rsum_ext; intros f Hf. rewrite rsum_swap. apply rsum_ext; intros c Hc. reflexivity. }
  apply rsum_ext; intros s Hs. apply rsum_ext; intros f Hf. apply rsum_ext; intros c Hc. rewrite Vy by auto.
  rewrite <- rsum_scale_r. apply rsum_ext. intros r Hr. cbn. ring.
Qed.

(* ---------- linearity ---------- *)
Theorem im_to_vis_linear nrows nsrc nchan ncorr uvw lm freq conv e (a b : RC) x y z : im_sign conv e ->
  (forall s f c, z s f c = cadd (cmul a (x s f c)) (cmul b (y s f c))) ->
  exists X Y Z, im_to_vis nrows nsrc nchan ncorr x uvw lm freq conv = Ok X /\
    im_to_vis nrows nsrc nchan ncorr y uvw lm freq conv = Ok Y /\
    im_to_vis nrows nsrc nchan ncorr z uvw lm freq conv = Ok Z /\
    forall r f c, (r < nrows)%nat -> (f < nchan)%nat -> (c < ncorr)%nat ->
      Z r f c = cadd (cmul a (X r f c)) (cmul b (Y r f c)).
Proof.
  intros He Hz.
  destruct (im_to_vis_value nrows nsrc nchan ncorr x uvw lm freq conv e He) as (X & EX & VX).
  destruct (im_to_vis_value nrows nsrc nchan ncorr y uvw lm freq conv e He) as (Y & EY & VY).
  destruct (im_to_vis_value nrows nsrc nchan ncorr z uvw lm freq conv e He) as (Z & EZ & VZ).
  exists X, Y, Z. repeat split; auto. intros r f c Hr Hf Hc. rewrite VX, VY, VZ by auto.
  clear - Hz. induction nsrc as [|n IH]; cbn [csum].
  - destruct a, b. cbn. f_equal; ring.
  - rewrite IH, Hz. destruct a, b, (x n f c), (y n f c), (csum n (fun s => cis (e * src_delay lm uvw freq s r f) * x s f c)%K),
      (csum n (fun s => cis (e * src_delay lm uvw freq s r f) * y s f c)%K). cbn. f_equal; ring.
Qed.

Theorem vis_to_im_linear nrows nsrc nchan ncorr uvw lm freq flags conv e (a b : R) x y z : im_sign conv e ->
  (forall r f c, z r f c = cadd (cmul (ofR a) (x r f c)) (cmul (ofR b) (y r f c))) ->
  exists X Y Z, vis_to_im nrows nsrc nchan ncorr true x uvw lm freq flags conv = Ok X /\
    vis_to_im nrows nsrc nchan ncorr true y uvw lm freq flags conv = Ok Y /\
    vis_to_im nrows nsrc nchan ncorr true z uvw lm freq flags conv = Ok Z /\
    forall s f c, (s < nsrc)%nat -> (f < nchan)%nat -> (c < ncorr)%nat -> Z s f c = a * X s f c + b * Y s f c.
Proof.
  intros He Hz. destruct He; do 3 eexists; (split; [reflexivity|]; split; [reflexivity|]; split; [reflexivity|]);
    intros s f c Hs Hf Hc; rewrite !vis_to_im_body_value by auto; rewrite <- !rsum_scale, <- rsum_add;
    apply rsum_ext; intros r Hr; rewrite Hz; (destruct (any_flag _ _); [ring|]); cbn; ring.
Qed.

(* ---------- rows ---------- *)
Theorem vis_to_im_rows n1 n2 nsrc nchan ncorr uvw lm freq flags conv e V : im_sign conv e ->
  exists X Y Z, vis_to_im n1 nsrc nchan ncorr true V uvw lm freq flags conv = Ok X /\
    vis_to_im n2 nsrc nchan ncorr true (fun r => V (n1 + r)%nat) (fun r => uvw (n1 + r)%nat) lm freq (fun r => flags (n1 + r)%nat) conv = Ok Y /\
    vis_to_im (n1 + n2) nsrc nchan ncorr true V uvw lm freq flags conv = Ok Z /\
    forall s f c, (s < nsrc)%nat -> (f < nchan)%nat -> (c < ncorr)%nat -> Z s f c = X s f c + Y s f c.
Proof.
  intros He. destruct He; do 3 eexists; (split; [reflexivity|]; split; [reflexivity|]; split; [reflexivity|]);
    intros s f c Hs Hf Hc; rewrite !vis_to_im_body_value by auto; apply rsum_app.
Qed.
(* flagged samples are ignored *)
Theorem vis_to_im_flagged nrows nsrc nchan ncorr uvw lm freq flags conv e V V' : im_sign conv e ->
  (forall r f c, ~ flagged ncorr flags r f -> V r f c = V' r f c) ->
  exists X Y, vis_to_im nrows nsrc nchan ncorr true V uvw lm freq flags conv = Ok X /\
    vis_to_im nrows nsrc nchan ncorr true V' uvw lm freq flags conv = Ok Y /\
    forall s f c, (s < nsrc)%nat -> (f < nchan)%nat -> (c < ncorr)%nat -> X s f c = Y s f c.
Proof.
  intros He Hv. destruct He; do 2 eexists; (split; [reflexivity|]; split; [reflexivity|]);
    intros s f c Hs Hf Hc; rewrite !vis_to_im_body_value by auto; apply rsum_ext; intros r Hr;
    (destruct (any_flag ncorr (flags r f)) eqn:E; auto); rewrite Hv; auto; intros X; apply any_flag_spec in X; congruence.
Qed.
Theorem vis_to_im_unknown nrows nsrc nchan ncorr V uvw lm freq flags conv : conv <> "fourier"%string -> conv <> "casa"%string ->
  vis_to_im nrows nsrc nchan ncorr true V uvw lm freq flags conv = Raise ValueError.
Proof.
  intros A B. unfold vis_to_im, vis_constant. destruct (String.eqb_spec conv "fourier"); [contradiction|].
  destruct (String.eqb_spec conv "casa"); [contradiction|]. reflexivity.
Qed.

(* ---------- chunks ---------- *)
Lemma locate_spec chunks : forall start i, (start <= i < start + list_sum chunks)%nat ->
  forall s n, locate start chunks i = (s, n) -> (s <= i < s + n)%nat /\ (start <= s)%nat.
Proof.
  induction chunks as [|k rest IH]; cbn [locate]; intros start i H s n E.
  - cbn in H. lia.
  - change (list_sum (k :: rest)) with (k + list_sum rest)%nat in H.
    destruct (Nat.ltb_spec i (start + k)).
    + injection E as <- <-. lia.
    + destruct (IH (start + k)%nat i ltac:(lia) s n E). lia.
Qed.
Lemma starts_sum chunks (g : nat -> R) : forall start,
  fold_right (fun '(r0, nr) acc => rsum nr (fun r => g (r0 + r)%nat) + acc) 0 (starts start chunks) = rsum (list_sum chunks) (fun r => g (start + r)%nat).
Proof.
  induction chunks as [|n rest IH]; intros start; [reflexivity|].
  change (list_sum (n :: rest)) with (n + list_sum rest)%nat. rewrite rsum_app. cbn [starts fold_right]. rewrite IH.
  f_equal. apply rsum_ext. intros i _. f_equal. lia.
Qed.

Lemma nats_eqb_refl l : nats_eqb l l = true.
Proof. unfold nats_eqb. destruct (list_eq_dec _ _ _); congruence. Qed.
Lemma nats_eqb_eq a b : nats_eqb a b = true -> a = b.
Proof. unfold nats_eqb. destruct (list_eq_dec _ _ _); congruence. Qed.

Theorem dask_im_to_vis_eq rows nsrc chan corr image uvw lm freq conv e : im_sign conv e ->
  exists X Y, dask_im_to_vis rows [nsrc] [nsrc] chan corr chan image uvw lm freq conv = Ok X /\
    im_to_vis (list_sum rows) nsrc (list_sum chan) (list_sum corr) image uvw lm freq conv = Ok Y /\
    forall r f c, (r < list_sum rows)%nat -> (f < list_sum chan)%nat -> (c < list_sum corr)%nat -> X r f c = Y r f c.
Proof.
  intros He. unfold dask_im_to_vis. cbn [hd list_sum fold_right]. rewrite Nat.add_0_r, Nat.eqb_refl, nats_eqb_refl. cbn [negb].
  destruct He; do 2 eexists; (split; [reflexivity|]; split; [reflexivity|]); intros r f c Hr Hf Hc; cbv beta;
    destruct (locate 0 rows r) as [r0 nr] eqn:Er; destruct (locate 0 chan f) as [f0 nf] eqn:Ef; destruct (locate 0 corr c) as [k0 nk] eqn:Ek;
    apply locate_spec in Er, Ef, Ek; try lia; rewrite !im_to_vis_body_value by lia; apply csum_ext; intros s Hs;
    unfold phase_of; rewrite !Nat.add_sub_assoc, !(Nat.add_comm r0), !(Nat.add_comm f0), !(Nat.add_comm k0), !Nat.add_sub by lia; reflexivity.
Qed.

Lemma any_flag_ext n a b : (forall c, (c < n)%nat -> a c = b c) -> any_flag n a = any_flag n b.
Proof. induction n as [|n IH]; cbn; auto. intros H. rewrite IH, (H n); auto. Qed.

(* the chunked transform, block by block *)
Lemma dask_vis_to_im_value rows chan corr src V uvw lm freq flags conv constant : vis_constant conv = Ok constant ->
  exists X, dask_vis_to_im rows chan corr rows src chan rows chan corr V uvw lm freq flags conv = Ok X /\
    forall s f c s0 ns k0 nk, (s < list_sum src)%nat -> (f < list_sum chan)%nat -> (c < list_sum corr)%nat ->
      locate 0 src s = (s0, ns) -> locate 0 corr c = (k0, nk) ->
      X s f c = rsum (list_sum rows) (fun r => if any_flag nk (fun k => flags r f (k0 + k)%nat) then 0
        else re (cmul (cis (phase_of constant lm uvw freq s r f)) (V r f c))).
Proof.
  intros Hc. unfold dask_vis_to_im. rewrite !nats_eqb_refl. cbn [negb andb]. rewrite Hc. cbn [bind].
  eexists. split; [reflexivity|]. intros s f c s0 ns k0 nk Hs Hf Hk Es Ek. cbv beta. rewrite Es, Ek.
  destruct (locate 0 chan f) as [f0 nf] eqn:Ef. apply locate_spec in Es, Ef, Ek; try lia.
  etransitivity; [|exact (starts_sum rows (fun r => if any_flag nk (fun k => flags r f (k0 + k)%nat) then 0
        else re (cmul (cis (phase_of constant lm uvw freq s r f)) (V r f c))) 0)].
  induction (starts 0 rows) as [|[r0 nr] rest IH]; [reflexivity|]. cbn [fold_right]. rewrite IH. f_equal.
  rewrite vis_to_im_body_value by lia. apply rsum_ext. intros r Hr.
  replace (f0 + (f - f0))%nat with f by lia. replace (k0 + (c - k0))%nat with c by lia.
  destruct (any_flag _ _); auto. unfold phase_of. replace (f0 + (f - f0))%nat with f by lia.
  replace (s0 + (s - s0))%nat with s by lia. reflexivity.
Qed.
Lemma im_sign_vis conv e : im_sign conv e -> exists k, vis_constant conv = Ok k.
Proof. intros []; eexists; reflexivity. Qed.

(* chunking is invisible when flags do not tell correlations apart, or the correlations are in one chunk *)
Theorem dask_vis_to_im_eq rows chan corr src V uvw lm freq flags conv e : im_sign conv e ->
  (corr = [list_sum corr] \/ (forall r f c c', (c < list_sum corr)%nat -> (c' < list_sum corr)%nat -> flags r f c = flags r f c')) ->
  exists X Y, dask_vis_to_im rows chan corr rows src chan rows chan corr V uvw lm freq flags conv = Ok X /\
    vis_to_im (list_sum rows) (list_sum src) (list_sum chan) (list_sum corr) true V uvw lm freq flags conv = Ok Y /\
    forall s f c, (s < list_sum src)%nat -> (f < list_sum chan)%nat -> (c < list_sum corr)%nat -> X s f c = Y s f c.
Proof.
  intros He HF. destruct (im_sign_vis conv e He) as (k & Hk).
  destruct (dask_vis_to_im_value rows chan corr src V uvw lm freq flags conv k Hk) as (X & EX & VX).
  exists X. eexists. split; auto. split. { unfold vis_to_im. rewrite Hk. reflexivity. }
  intros s f c Hs Hf Hc. rewrite vis_to_im_body_value by auto.
  destruct (locate 0 src s) as [s0 ns] eqn:Es. destruct (locate 0 corr c) as [k0 nk] eqn:Ek.
  rewrite (VX s f c s0 ns k0 nk) by auto. apply rsum_ext. intros r Hr.
  assert (G : any_flag nk (fun i => flags r f (k0 + i)%nat) = any_flag (list_sum corr) (flags r f)); [|now rewrite G].
  destruct HF as [HF|HF].
  - rewrite HF in Ek. cbn [locate] in Ek. rewrite (proj2 (Nat.ltb_lt _ _)) in Ek by lia. injection Ek as <- <-. reflexivity.
  - apply locate_spec in Ek as Ek'; [|lia].
    assert (B : forall n, (n <= list_sum corr)%nat -> (0 < n)%nat -> any_flag n (flags r f) = flags r f c).
    { intros n. induction n as [|n IH]; [lia|]. intros A _. cbn. rewrite (HF r f n c) by lia. destruct n; [reflexivity|].
      rewrite IH by lia. apply Bool.orb_diag. }
    assert (EN : (k0 + nk <= list_sum corr)%nat).
    { clear - Ek Hc. assert (Z : forall l st i, (st <= i < st + list_sum l)%nat -> forall a b, locate st l i = (a, b) -> (a + b <= st + list_sum l)%nat).
      { induction l as [|x l IH]; intros st i H a b E. { cbn in H. lia. } change (list_sum (x :: l)) with (x + list_sum l)%nat in *. cbn [locate] in E.
        destruct (Nat.ltb_spec i (st + x)). { injection E as <- <-. lia. } apply IH in E; lia. }
      apply Z in Ek; lia. }
    rewrite (B (list_sum corr)) by lia.
    assert (C : forall n, (n <= nk)%nat -> (0 < n)%nat -> any_flag n (fun i => flags r f (k0 + i)%nat) = flags r f c).
    { intros n. induction n as [|n IH]; [lia|]. intros A _. cbn. rewrite (HF r f (k0 + n)%nat c) by lia. destruct n; [reflexivity|].
      rewrite IH by lia. apply Bool.orb_diag. }
    apply C; lia.
Qed.

(* two correlations in two chunks, the first flagged: the chunked transform keeps the second, the direct one drops it *)
Theorem dask_vis_to_im_corr_refuted : exists V uvw lm freq flags X Y,
  dask_vis_to_im [1%nat] [1%nat] [1%nat; 1%nat] [1%nat] [1%nat] [1%nat] [1%nat] [1%nat] [1%nat; 1%nat] V uvw lm freq flags "fourier" = Ok X /\
  vis_to_im 1 1 1 2 true V uvw lm freq flags "fourier" = Ok Y /\ X 0%nat 0%nat 1%nat = 1 /\ Y 0%nat 0%nat 1%nat = 0.
Proof.
  set (V := fun _ _ _ : nat => (c1 : RC)). set (z := fun _ _ : nat => 0). set (fl := fun _ _ c : nat => Nat.eqb c 0).
  destruct (dask_vis_to_im_value [1%nat] [1%nat] [1%nat; 1%nat] [1%nat] V z z (fun _ => 1) fl "fourier" two_pi_over_c eq_refl) as (X & EX & VX).
  exists V, z, z, (fun _ => 1), fl, X. eexists. split; [exact EX|]. split; [reflexivity|]. split.
  - rewrite (VX 0 0 1 0 1 1 1)%nat by (cbn; auto; lia). cbn. replace (phase_of _ _ _ _ _ _ _) with 0.
    + rewrite cos_0, sin_0. ring.
    + unfold phase_of, z. ring.
  - rewrite vis_to_im_body_value by lia. cbn. ring.
Qed.

Theorem dask_im_to_vis_checks rows lm_src im_src im_chan im_corr freq_chan image uvw lm freq conv X :
  dask_im_to_vis rows lm_src im_src im_chan im_corr freq_chan image uvw lm freq conv = Ok X ->
  hd O lm_src = list_sum lm_src /\ hd O im_src = list_sum im_src /\ hd O im_src = hd O lm_src /\ im_chan = freq_chan.
Proof.
  unfold dask_im_to_vis. destruct (Nat.eqb_spec (hd O lm_src) (list_sum lm_src)); [|discriminate].
  destruct (Nat.eqb_spec (hd O im_src) (list_sum im_src)); [|discriminate].
  destruct (Nat.eqb_spec (hd O im_src) (hd O lm_src)); [|discriminate].
  destruct (nats_eqb im_chan freq_chan) eqn:E; [|discriminate]. apply nats_eqb_eq in E. auto.
Qed.
Theorem dask_vis_to_im_checks rows chan corr urow src fchan frow flchan fcorr V uvw lm freq flags conv X :
  dask_vis_to_im rows chan corr urow src fchan frow flchan fcorr V uvw lm freq flags conv = Ok X ->
  urow = rows /\ fchan = chan /\ frow = rows /\ flchan = chan /\ fcorr = corr.
Proof.
  unfold dask_vis_to_im. destruct (nats_eqb rows urow) eqn:E1; [|discriminate]. destruct (nats_eqb chan fchan) eqn:E2; [|discriminate].
  destruct (nats_eqb rows frow) eqn:E3, (nats_eqb chan flchan) eqn:E4, (nats_eqb corr fcorr) eqn:E5; try discriminate.
  apply nats_eqb_eq in E1, E2, E3, E4, E5. auto.
Qed.
