(* C123: sources imaged by an interferometer are found by CLEAN. *)
From Coq Require Import Reals Lra Lia String.
From Verif Require Import Prelude CRing CplxR RimeModel RimeSpec RimeProofs DftModel DftSpec DftProofs HogModel HogSpec HogProofs CleanSpec CleanProofs ImgSpec ImgProofs IsoSpec IsoProofs SynSpec SynProofs.
Open Scope R_scope.

(* The visibilities of K sources that are not negative, imaged and divided by the number of rows used, with a point spread function
   whose sidelobes are at most mu: components only on sources, none too large, and with enough cycles every source is found. *)
Theorem C123_sources : forall nrows nchan ncorr n uvw freq flags conv e l0 m0 dl dm sky V D P f c mu S gamma threshold niter v C R, im_sign conv e ->
  (forall r, (r < nrows)%nat -> uvw r 2%nat = 0) ->
  im_to_vis nrows (n * n) nchan ncorr (fun s f c => ofR (sky s f c)) uvw (grid_lm n l0 m0 dl dm) freq conv = Ok V ->
  vis_to_im nrows (n * n) nchan ncorr true V uvw (grid_lm n l0 m0 dl dm) freq flags conv = Ok D ->
  vis_to_im nrows (2 * n * (2 * n)) nchan ncorr true (fun _ _ _ => c1) uvw (psf_lm n dl dm) freq flags conv = Ok P ->
  (f < nchan)%nat -> (c < ncorr)%nat -> (0 < n)%nat ->
  let dirty := scaled (kept_rows nrows ncorr flags f) (plane n D f c) in
  let psf := scaled (kept_rows nrows ncorr flags f) (plane (2 * n) P f c) in
  0 <= mu -> sidelobes n psf mu -> sources_at n S (plane n sky f c) -> 2 * mu * INR (length S) < 1 + mu -> gain_fits (length S) mu gamma ->
  0 <= fraction threshold -> is_max n n dirty v ->
  hogbom_clean n n dirty (2 * n) (2 * n) psf gamma threshold niter = Ok (C, R) ->
  (forall x y, in_image n n x y -> 0 <= C x y <= plane n sky f c x y) /\
  (let thr := fraction threshold * Rabs v in flux n (plane n sky f c) < IZR (niter_of n niter + 1) * (gamma * thr) ->
   forall x y, in_image n n x y -> 0 <= plane n sky f c x y - C x y <= thr / (1 + mu - mu * INR (length S))).
Proof.
  intros nrows nchan ncorr n uvw freq flags conv e l0 m0 dl dm sky V D P f c mu S gamma threshold niter v C R He Hw EV ED EP Hf Hc Hn dirty psf Mu Side Sky Few Gain T Mv E.
  pose proof (fun x y => imaged_dirty nrows nchan ncorr n uvw freq flags conv e l0 m0 dl dm sky V D P He Hw EV ED EP f c Hf Hc x y) as Dy.
  split.
  - exact (proj1 (iso_components n psf mu Hn Mu Side S gamma Few Gain (plane n sky f c) Sky dirty Dy threshold niter C R T E)).
  - intros thr L. exact (iso_recovers n psf mu Hn Mu Side S gamma Few Gain (plane n sky f c) Sky dirty Dy threshold niter v C R T Mv L E).
Qed.

Lemma full_w n freq dl dm uvw : full_coverage n freq dl dm uvw -> forall r, (r < n * n)%nat -> uvw r 2%nat = 0.
Proof.
  intros H r Hr. assert (n <> 0)%nat by (intros ->; lia). rewrite (Nat.div_mod r n) by assumption. rewrite (Nat.mul_comm n).
  apply H; [apply Nat.div_lt_upper_bound; lia|now apply Nat.mod_upper_bound].
Qed.
(* n * n baselines that sample every spatial frequency of the image once: the dirty image is the sky, whatever the sky is, and the
   point spread function is one at its centre and zero at all other distances in the image. *)
Theorem C123_full_coverage : forall nchan ncorr n uvw freq flags conv e l0 m0 dl dm sky V D P f c, im_sign conv e ->
  im_to_vis (n * n) (n * n) nchan ncorr (fun s f c => ofR (sky s f c)) uvw (grid_lm n l0 m0 dl dm) freq conv = Ok V ->
  vis_to_im (n * n) (n * n) nchan ncorr true V uvw (grid_lm n l0 m0 dl dm) freq flags conv = Ok D ->
  vis_to_im (n * n) (2 * n * (2 * n)) nchan ncorr true (fun _ _ _ => c1) uvw (psf_lm n dl dm) freq flags conv = Ok P ->
  (f < nchan)%nat -> (c < ncorr)%nat -> (0 < n)%nat -> full_coverage n (freq f) dl dm uvw -> no_flags (n * n) ncorr flags f ->
  (forall x y, in_image n n x y -> plane n D f c x y = INR n * INR n * plane n sky f c x y) /\
  sidelobes n (scaled (INR n * INR n) (plane (2 * n) P f c)) 0.
Proof.
  intros nchan ncorr n uvw freq flags conv e l0 m0 dl dm sky V D P f c He EV ED EP Hf Hc Hn Full NF. pose proof (full_w _ _ _ _ _ Full) as Hw.
  assert (Pn : 0 < INR n) by (now apply lt_0_INR). split.
  - intros x y I. pose proof (full_dirty (n * n) nchan ncorr n uvw freq flags conv e l0 m0 dl dm sky V D P He Hw EV ED EP f c Hf Hc Hn Full eq_refl NF x y I) as H.
    rewrite (full_kept (n * n) ncorr n flags f eq_refl NF) in H. rewrite <- H. unfold scaled. field. lra.
  - rewrite <- (full_kept (n * n) ncorr n flags f eq_refl NF). exact (full_sidelobes (n * n) nchan ncorr n uvw freq flags conv e dl dm P He Hw EP f c Hf Hc Hn Full eq_refl NF).
Qed.
(* and CLEAN with a gain of at most one finds any sky that is not negative, with any number of sources *)
Theorem C123_full_clean : forall nchan ncorr n uvw freq flags conv e l0 m0 dl dm sky V D P f c gamma threshold niter v C R, im_sign conv e ->
  im_to_vis (n * n) (n * n) nchan ncorr (fun s f c => ofR (sky s f c)) uvw (grid_lm n l0 m0 dl dm) freq conv = Ok V ->
  vis_to_im (n * n) (n * n) nchan ncorr true V uvw (grid_lm n l0 m0 dl dm) freq flags conv = Ok D ->
  vis_to_im (n * n) (2 * n * (2 * n)) nchan ncorr true (fun _ _ _ => c1) uvw (psf_lm n dl dm) freq flags conv = Ok P ->
  (f < nchan)%nat -> (c < ncorr)%nat -> (0 < n)%nat -> full_coverage n (freq f) dl dm uvw -> no_flags (n * n) ncorr flags f ->
  let dirty := scaled (INR n * INR n) (plane n D f c) in
  let psf := scaled (INR n * INR n) (plane (2 * n) P f c) in
  (forall x y, in_image n n x y -> 0 <= plane n sky f c x y) -> 0 <= gamma <= 1 -> 0 <= fraction threshold -> is_max n n dirty v ->
  hogbom_clean n n dirty (2 * n) (2 * n) psf gamma threshold niter = Ok (C, R) ->
  (forall x y, in_image n n x y -> 0 <= C x y <= plane n sky f c x y) /\
  (let thr := fraction threshold * Rabs v in flux n (plane n sky f c) < IZR (niter_of n niter + 1) * (gamma * thr) ->
   forall x y, in_image n n x y -> plane n sky f c x y - C x y <= thr).
Proof.
  intros nchan ncorr n uvw freq flags conv e l0 m0 dl dm sky V D P f c gamma threshold niter v C R He EV ED EP Hf Hc Hn Full NF dirty psf Pos G T Mv E.
  pose proof (full_w _ _ _ _ _ Full) as Hw. pose proof (full_kept (n * n) ncorr n flags f eq_refl NF) as K.
  destruct (C123_full_coverage nchan ncorr n uvw freq flags conv e l0 m0 dl dm sky V D P f c He EV ED EP Hf Hc Hn Full NF) as [_ Side].
  assert (Sky : sources_at n (list_prod (seq 0 n) (seq 0 n)) (plane n sky f c)).
  { intros x y I. split; [exact (Pos x y I)|]. intros _. destruct I. apply in_prod; apply in_seq; lia. }
  destruct (C123_sources (n * n) nchan ncorr n uvw freq flags conv e l0 m0 dl dm sky V D P f c 0 _ gamma threshold niter v C R He Hw EV ED EP Hf Hc Hn ltac:(lra)
    ltac:(rewrite K; exact Side) Sky ltac:(lra) ltac:(split; lra) T ltac:(rewrite K; exact Mv) ltac:(rewrite K; exact E)) as [A B].
  split; [exact A|]. intros thr L x y I. specialize (B L x y I). rewrite Rmult_0_l, Rplus_0_r, Rminus_0_r in B. unfold Rdiv in B. rewrite Rinv_1, Rmult_1_r in B. apply B.
Qed.
(* With too few baselines components appear where there is no source: one baseline of length zero. *)
Theorem C123_few_baselines_refuted : ~ forall nrows nchan ncorr n uvw freq flags conv e l0 m0 dl dm sky V D P f c gamma threshold niter C R, im_sign conv e ->
  (forall r, (r < nrows)%nat -> uvw r 2%nat = 0) ->
  im_to_vis nrows (n * n) nchan ncorr (fun s f c => ofR (sky s f c)) uvw (grid_lm n l0 m0 dl dm) freq conv = Ok V ->
  vis_to_im nrows (n * n) nchan ncorr true V uvw (grid_lm n l0 m0 dl dm) freq flags conv = Ok D ->
  vis_to_im nrows (2 * n * (2 * n)) nchan ncorr true (fun _ _ _ => c1) uvw (psf_lm n dl dm) freq flags conv = Ok P ->
  (f < nchan)%nat -> (c < ncorr)%nat -> (0 < n)%nat -> 0 < kept_rows nrows ncorr flags f ->
  let dirty := scaled (kept_rows nrows ncorr flags f) (plane n D f c) in
  let psf := scaled (kept_rows nrows ncorr flags f) (plane (2 * n) P f c) in
  (forall x y, in_image n n x y -> 0 <= plane n sky f c x y) -> 0 <= gamma <= 1 -> 0 <= fraction threshold ->
  hogbom_clean n n dirty (2 * n) (2 * n) psf gamma threshold niter = Ok (C, R) ->
  forall x y, in_image n n x y -> 0 <= C x y <= plane n sky f c x y.
Proof.
  intros H.
  pose (uvw := (fun _ _ => 0) : arr2 R). pose (freq := (fun _ => 1) : arr R). pose (sky := (fun s _ _ => if Nat.eqb s 0 then 1 else 0) : arr3 R). pose (flags := (fun _ _ _ => false) : arr3 bool).
  destruct (im_to_vis_value 1 (2 * 2) 1 1 (fun s f c => ofR (sky s f c)) uvw (grid_lm 2 0 0 0 0) freq "casa" 1 sgn_casa) as (V & EV & _).
  destruct (vis_to_im_value 1 (2 * 2) 1 1 V (part 1 flags V) uvw (grid_lm 2 0 0 0 0) freq flags "casa" 1 sgn_casa (part_ok _ _ _)) as (D & ED & _).
  destruct (vis_to_im_value 1 (2 * 2 * (2 * 2)) 1 1 (fun _ _ _ => c1) (part 1 flags (fun _ _ _ => c1)) uvw (psf_lm 2 0 0) freq flags "casa" 1 sgn_casa (part_ok _ _ _)) as (P & EP & _).
  assert (K : kept_rows 1 1 flags 0 = 1) by (unfold kept_rows; cbn; lra).
  pose proof (imaged_dirty 1 1 1 2 uvw freq flags "casa" 1 0 0 0 0 sky V D P sgn_casa (fun _ _ => eq_refl) EV ED EP 0 0 ltac:(lia) ltac:(lia)) as Dy.
  assert (Pv : forall i j, (i < 4)%nat -> (j < 4)%nat -> plane (2 * 2) P 0 0 i j = 1).
  { intros i j Hi Hj. rewrite (psf_sampled 1 1 1 uvw freq flags "casa" 1 sgn_casa 2 0 0 (fun _ _ => eq_refl) P EP 0 0 i j ltac:(lia) ltac:(lia) ltac:(lia) ltac:(lia)).
    unfold sampled_psf, fl, uvw, flags. cbn -[INR]. match goal with |- context [cos ?t] => replace t with 0 by ring end. rewrite cos_0. lra. }
  rewrite K in Dy.
  assert (Dv : forall x y, in_image 2 2 x y -> scaled 1 (plane 2 D 0 0) x y = 1).
  { intros x y I. rewrite Dy by exact I. destruct I as [Hx Hy]. rewrite scaled_spread. unfold spread. cbn -[plane Nat.sub Nat.add Nat.mul]. rewrite !Pv by lia. unfold plane, sky. cbn. lra. }
  destruct (hogbom_spec 2 (scaled 1 (plane 2 D 0 0)) (scaled 1 (plane (2 * 2) P 0 0)) 1 (Some 0) (Some 0%Z) ltac:(lia)) as (v & k & Cs & Rs & Mv & E & Kk & C0 & R0 & Run & Stop).
  cbv zeta in Run, Stop. rewrite Rmult_0_l in Run, Stop.
  change (niter_of 2 (Some 0%Z)) with 0%Z in *. change (Z.to_nat (0 + 1)) with 1%nat in *.
  assert (V1 : forall w, is_max 2 2 (scaled 1 (plane 2 D 0 0)) w -> w = 1) by (intros w [(x & y & I & <-) _]; now apply Dv).
  assert (k = 1%nat) as ->.
  { destruct (Nat.eq_dec k 0) as [->|]; [|lia]. destruct (Stop ltac:(lia)) as (w & Mw & B). rewrite R0 in Mw. apply V1 in Mw. subst w. rewrite Rabs_R1 in B. lra. }
  destruct (Run 0%nat ltac:(lia)) as (w & p & q & Mw & L & _ & Cy & _). rewrite R0 in Mw, L. apply V1 in Mw. subst w.
  assert (p = 1 /\ q = 1)%nat as [-> ->].
  { destruct L as ([Hp Hq] & _ & La). destruct (Nat.eq_dec p 1) as [->|Np]; [destruct (Nat.eq_dec q 1) as [->|Nq]; [auto|]|]; exfalso; apply (La 1 1)%nat; try (split; lia); try (unfold later; lia); apply Dv; split; lia. }
  specialize (H 1%nat 1%nat 1%nat 2%nat uvw freq flags "casa"%string 1 0 0 0 0 sky V D P 0%nat 0%nat 1 (Some 0) (Some 0%Z) (Cs 1%nat) (Rs 1%nat) sgn_casa (fun _ _ => eq_refl) EV ED EP
    ltac:(lia) ltac:(lia) ltac:(lia) ltac:(rewrite K; lra)). cbv zeta in H. rewrite K in H.
  specialize (H ltac:(intros x y _; unfold plane, sky; destruct (Nat.eqb _ 0); lra) ltac:(lra) ltac:(cbn; lra) E 1%nat 1%nat ltac:(split; lia)).
  rewrite Cy, C0 in H. unfold plane, sky in H. cbn in H. lra.
Qed.

(* Four baselines sample an image of (2, 2) pixels fully; the three conversions are defined; nothing is flagged. *)
Definition four_uvw : arr2 R := fun r k => match k with O => INR (r / 2) | S O => INR (r mod 2) | _ => 0 end.
Example four_full : full_coverage 2 (light / 2) 1 1 four_uvw /\ no_flags 4 1 (fun _ _ _ => false) 0 /\ exists V D P,
  im_to_vis (2 * 2) (2 * 2) 1 1 (fun s _ _ => ofR (INR s)) four_uvw (grid_lm 2 0 0 1 1) (fun _ => light / 2) "casa" = Ok V /\
  vis_to_im (2 * 2) (2 * 2) 1 1 true V four_uvw (grid_lm 2 0 0 1 1) (fun _ => light / 2) (fun _ _ _ => false) "casa" = Ok D /\
  vis_to_im (2 * 2) (2 * 2 * (2 * 2)) 1 1 true (fun _ _ _ => c1) four_uvw (psf_lm 2 1 1) (fun _ => light / 2) (fun _ _ _ => false) "casa" = Ok P /\
  forall x y, in_image 2 2 x y -> plane 2 D 0 0 x y = 4 * INR (x * 2 + y).
Proof.
  assert (F : full_coverage 2 (light / 2) 1 1 four_uvw).
  { intros a b Ha Hb. destruct a as [|[|a]]; try lia; destruct b as [|[|b]]; try lia; unfold four_uvw; cbn; repeat split; try field. }
  assert (NF : no_flags 4 1 (fun _ _ _ => false) 0) by (intros ? ? _ _; reflexivity).
  split; [exact F|]. split; [exact NF|].
  destruct (im_to_vis_value (2 * 2) (2 * 2) 1 1 (fun s _ _ => ofR (INR s)) four_uvw (grid_lm 2 0 0 1 1) (fun _ => light / 2) "casa" 1 sgn_casa) as (V & EV & _).
  destruct (vis_to_im_value (2 * 2) (2 * 2) 1 1 V (part 1 (fun _ _ _ => false) V) four_uvw (grid_lm 2 0 0 1 1) (fun _ => light / 2) (fun _ _ _ => false) "casa" 1 sgn_casa (part_ok _ _ _)) as (D & ED & _).
  destruct (vis_to_im_value (2 * 2) (2 * 2 * (2 * 2)) 1 1 (fun _ _ _ => c1) (part 1 (fun _ _ _ => false) (fun _ _ _ => c1)) four_uvw (psf_lm 2 1 1) (fun _ => light / 2) (fun _ _ _ => false) "casa" 1 sgn_casa (part_ok _ _ _)) as (P & EP & _).
  exists V, D, P. split; [exact EV|]. split; [exact ED|]. split; [exact EP|]. intros x y I.
  destruct (C123_full_coverage 1 1 2 four_uvw (fun _ => light / 2) (fun _ _ _ => false) "casa" 1 0 0 1 1 (fun s _ _ => INR s) V D P 0 0 sgn_casa EV ED EP ltac:(lia) ltac:(lia) ltac:(lia) F NF) as [H _].
  rewrite (H x y I). unfold plane. simpl (INR 2). ring.
Qed.
Print Assumptions C123_sources. Print Assumptions C123_full_coverage. Print Assumptions C123_full_clean. Print Assumptions C123_few_baselines_refuted.
