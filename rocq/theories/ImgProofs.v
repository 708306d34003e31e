From Coq Require Import Reals Lra Lia String.
From Verif Require Import Prelude CRing CplxR RimeModel RimeSpec RimeProofs DftModel DftSpec DftProofs HogModel HogSpec HogProofs CleanSpec CleanProofs ImgSpec.
Open Scope R_scope.

Lemma rsum_flat n m f : rsum (n * m) f = rsum n (fun x => rsum m (fun y => f (x * m + y)%nat)).
Proof.
  induction n as [|n IH]; [reflexivity|]. replace (S n * m)%nat with (n * m + m)%nat by lia. rewrite rsum_app, IH. rewrite rsum_S. reflexivity.
Qed.
Definition fl ncorr (flags : arr3 bool) r f := existsb (fun c => flags r f c) (seq 0 ncorr).
Lemma fl_spec ncorr flags r f : fl ncorr flags r f = true <-> flagged ncorr flags r f.
Proof. unfold fl, flagged. rewrite existsb_exists. split; intros (c & H & E); exists c; rewrite in_seq in *; (split; [lia|exact E]). Qed.
Definition part ncorr flags (V : arr3 RC) : arr3 RC := fun r f c => if fl ncorr flags r f then c0 else V r f c.
Lemma part_ok ncorr flags V : unflagged_part ncorr flags V (part ncorr flags V).
Proof. intros r f c. unfold part. rewrite <- fl_spec. destruct (fl ncorr flags r f); split; congruence. Qed.

Section Image.
  Context (nrows nchan ncorr : nat) (uvw : arr2 R) (freq : arr R) (flags : arr3 bool) (conv : string) (e : R) (He : im_sign conv e).
  Let g r f := if fl ncorr flags r f then 0 else 1.
  Lemma sign_cos x : cos (e * x) = cos x.
  Proof using He. destruct He; [|now rewrite Rmult_1_l]. replace (-1 * x) with (- x) by ring. apply cos_neg. Qed.
  Lemma image_of nsrc lm V D : vis_to_im nrows nsrc nchan ncorr true V uvw lm freq flags conv = Ok D ->
    forall s f c, (s < nsrc)%nat -> (f < nchan)%nat -> (c < ncorr)%nat ->
    D s f c = rsum nrows (fun r => g r f * re (cmul (cconj (cis (e * src_delay lm uvw freq s r f))) (V r f c))).
  Proof using He.
    intros E s f c Hs Hf Hc. destruct (vis_to_im_value nrows nsrc nchan ncorr V (part ncorr flags V) uvw lm freq flags conv e He (part_ok _ _ _)) as (x & Ex & X).
    rewrite E in Ex. injection Ex as ->. rewrite X by assumption. apply rsum_ext. intros r _. unfold part, g. destruct (fl ncorr flags r f); cbn; ring.
  Qed.
  Lemma dirty_value nsrc lm sky V D : im_to_vis nrows nsrc nchan ncorr (fun s f c => ofR (sky s f c)) uvw lm freq conv = Ok V ->
    vis_to_im nrows nsrc nchan ncorr true V uvw lm freq flags conv = Ok D ->
    forall s f c, (s < nsrc)%nat -> (f < nchan)%nat -> (c < ncorr)%nat ->
    D s f c = rsum nsrc (fun t => sky t f c * rsum nrows (fun r => g r f * cos (src_delay lm uvw freq s r f - src_delay lm uvw freq t r f))).
  Proof using He.
    intros EV ED s f c Hs Hf Hc. rewrite (image_of _ _ _ _ ED s f c Hs Hf Hc).
    destruct (im_to_vis_value nrows nsrc nchan ncorr (fun s f c => ofR (sky s f c)) uvw lm freq conv e He) as (V' & EV' & HV). rewrite EV in EV'. injection EV' as <-.
    transitivity (rsum nrows (fun r => rsum nsrc (fun t => sky t f c * (g r f * cos (src_delay lm uvw freq s r f - src_delay lm uvw freq t r f))))).
    - apply rsum_ext. intros r Hr. rewrite HV by assumption. rewrite re_cmul_csum, <- rsum_scale. apply rsum_ext. intros t _.
      rewrite <- (sign_cos (src_delay lm uvw freq s r f - _)). replace (e * (src_delay lm uvw freq s r f - src_delay lm uvw freq t r f)) with (e * src_delay lm uvw freq s r f - e * src_delay lm uvw freq t r f) by ring.
      rewrite cos_minus. cbn. ring.
    - rewrite rsum_swap. apply rsum_ext. intros t _. apply rsum_scale.
  Qed.
  Lemma psf_value nsrc lm P : vis_to_im nrows nsrc nchan ncorr true (fun _ _ _ => c1) uvw lm freq flags conv = Ok P ->
    forall s f c, (s < nsrc)%nat -> (f < nchan)%nat -> (c < ncorr)%nat -> P s f c = rsum nrows (fun r => g r f * cos (src_delay lm uvw freq s r f)).
  Proof using He.
    intros E s f c Hs Hf Hc. rewrite (image_of _ _ _ _ E s f c Hs Hf Hc). apply rsum_ext. intros r _. rewrite <- sign_cos. cbn. ring.
  Qed.

  Context (n : nat) (l0 m0 dl dm : R) (Hw : forall r, (r < nrows)%nat -> uvw r 2%nat = 0).
  Let k r f j d := 2 * PI * freq f / light * (uvw r j * d).
  Lemma delay_flat N l m r f x y : (r < nrows)%nat -> (y < N)%nat ->
    src_delay (grid_lm N l m dl dm) uvw freq (x * N + y) r f = 2 * PI * freq f / light * (l * uvw r 0%nat + m * uvw r 1%nat) + k r f 0%nat dl * INR x + k r f 1%nat dm * INR y.
  Proof using Hw.
    intros Hr Hy. unfold src_delay, delay, grid_lm. rewrite (Hw r Hr).
    replace ((x * N + y) / N)%nat with x by (apply (Nat.div_unique _ N x y); lia). replace ((x * N + y) mod N)%nat with y by (apply (Nat.mod_unique _ N x y); lia).
    unfold k. ring.
  Qed.
  Context (P : arr3 R) (EP : vis_to_im nrows (2 * n * (2 * n)) nchan ncorr true (fun _ _ _ => c1) uvw (psf_lm n dl dm) freq flags conv = Ok P).
  Lemma psf_sampled f c i j : (f < nchan)%nat -> (c < ncorr)%nat -> (i < 2 * n)%nat -> (j < 2 * n)%nat ->
    plane (2 * n) P f c i j = sampled_psf n nrows (fun r => g r f) (fun r => k r f 0%nat dl) (fun r => k r f 1%nat dm) i j.
  Proof using He Hw EP.
    intros Hf Hc Hi Hj. unfold plane. rewrite (psf_value _ _ _ EP) by (try assumption; nia). apply rsum_ext. intros r Hr. f_equal. f_equal.
    unfold psf_lm. rewrite delay_flat by assumption. unfold k. ring.
  Qed.
  Lemma dirty_spread sky V D : im_to_vis nrows (n * n) nchan ncorr (fun s f c => ofR (sky s f c)) uvw (grid_lm n l0 m0 dl dm) freq conv = Ok V ->
    vis_to_im nrows (n * n) nchan ncorr true V uvw (grid_lm n l0 m0 dl dm) freq flags conv = Ok D ->
    forall f c x y, (f < nchan)%nat -> (c < ncorr)%nat -> in_image n n x y -> plane n D f c x y = spread n (plane n sky f c) (plane (2 * n) P f c) x y.
  Proof using He Hw EP.
    intros EV ED f c x y Hf Hc [Hx Hy]. unfold plane at 1. rewrite (dirty_value _ _ _ _ _ EV ED) by (try assumption; nia). rewrite rsum_flat.
    apply rsum_ext. intros p Hp. apply rsum_ext. intros q Hq.
    change (sky (p * n + q)%nat f c * rsum nrows (fun r => g r f * cos (src_delay (grid_lm n l0 m0 dl dm) uvw freq (x * n + y) r f - src_delay (grid_lm n l0 m0 dl dm) uvw freq (p * n + q) r f)) =
            sky (p * n + q)%nat f c * plane (2 * n) P f c (n - 1 + x - p)%nat (n - 1 + y - q)%nat).
    f_equal. rewrite psf_sampled by (assumption || lia). apply rsum_ext. intros r Hr. f_equal. f_equal. rewrite !delay_flat by assumption.
    rewrite !minus_INR, !plus_INR, ?minus_INR by lia. ring.
  Qed.
  Lemma psf_ext psf psf' : (forall i j, (i < 2 * n)%nat -> (j < 2 * n)%nat -> psf i j = psf' i j) -> (symmetric n psf' -> symmetric n psf) /\ (positive n psf' -> positive n psf).
  Proof using.
    intros E. split.
    - intros S x y p q [Hx Hy] [Hp Hq]. rewrite !E by lia. apply S; split; assumption.
    - intros Ps z. rewrite (inner_ext n z (spread n z psf) z (spread n z psf')); [apply Ps|reflexivity|]. intros x y [Hx Hy].
      apply (rsum_ext n). intros p Hp. apply (rsum_ext n). intros q Hq. rewrite E by lia. reflexivity.
  Qed.
  Lemma psf_kind f c : (f < nchan)%nat -> (c < ncorr)%nat -> (0 < n)%nat ->
    symmetric n (plane (2 * n) P f c) /\ positive n (plane (2 * n) P f c) /\ plane (2 * n) P f c (n - 1)%nat (n - 1)%nat = kept_rows nrows ncorr flags f.
  Proof using He Hw EP.
    intros Hf Hc Hn. destruct (psf_ext _ _ (fun i j => psf_sampled f c i j Hf Hc)) as [S Ps]. split; [apply S, sampled_symmetric|]. split.
    - apply Ps, sampled_positive. intros r _. unfold g. destruct (fl ncorr flags r f); lra.
    - rewrite psf_sampled by (assumption || lia). apply rsum_ext. intros r _. replace (k r f 0%nat dl * (INR (n - 1) - INR (n - 1)) + k r f 1%nat dm * (INR (n - 1) - INR (n - 1))) with 0 by ring.
      rewrite cos_0. unfold g, fl. destruct (existsb _ _); ring.
  Qed.
End Image.

Lemma scaled_spread n N a psf x y : spread n a (scaled N psf) x y = spread n a psf x y / N.
Proof.
  unfold Rdiv. change (spread n a psf x y) with (rsum n (fun p => rsum n (fun q => a p q * psf (n - 1 + x - p)%nat (n - 1 + y - q)%nat))). rewrite <- rsum_scale_r.
  apply rsum_ext. intros p _. rewrite <- rsum_scale_r. apply rsum_ext. intros q _. unfold scaled. change (a p q * (psf (n - 1 + x - p)%nat (n - 1 + y - q)%nat / N) = a p q * psf (n - 1 + x - p)%nat (n - 1 + y - q)%nat * / N). unfold Rdiv. ring.
Qed.
Lemma scaled_kind n N psf : 0 < N -> (symmetric n psf -> symmetric n (scaled N psf)) /\ (positive n psf -> positive n (scaled N psf)).
Proof.
  intros HN. split.
  - intros S x y p q I J. unfold scaled. rewrite (S x y p q I J). reflexivity.
  - intros Ps z. rewrite (inner_ext n z (spread n z (scaled N psf)) z (fun x y => / N * spread n z psf x y)).
    + rewrite inner_scale. apply Rmult_le_pos; [left; now apply Rinv_0_lt_compat|apply Ps].
    + reflexivity.
    + intros x y _. rewrite scaled_spread. unfold Rdiv. ring.
Qed.
