(* C118: images made by direct transforms can be deconvolved *)
From Coq Require Import Reals Lra Lia String.
From Verif Require Import Prelude CRing CplxR RimeModel RimeSpec RimeProofs DftModel DftSpec DftProofs HogModel HogSpec HogProofs CleanSpec CleanProofs ImgSpec ImgProofs.
Open Scope R_scope.

(* C118.  With baselines in a plane (w = 0), the image by vis_to_im of the visibilities that im_to_vis gives for a sky is the sky
   convolved with the point spread function, which is the image of unit visibilities with the same flags. *)
Theorem C118_dirty_is_convolution : forall nrows nchan ncorr n uvw freq flags conv e l0 m0 dl dm sky V D P, im_sign conv e ->
  (forall r, (r < nrows)%nat -> uvw r 2%nat = 0) ->
  im_to_vis nrows (n * n) nchan ncorr (fun s f c => ofR (sky s f c)) uvw (grid_lm n l0 m0 dl dm) freq conv = Ok V ->
  vis_to_im nrows (n * n) nchan ncorr true V uvw (grid_lm n l0 m0 dl dm) freq flags conv = Ok D ->
  vis_to_im nrows (2 * n * (2 * n)) nchan ncorr true (fun _ _ _ => c1) uvw (psf_lm n dl dm) freq flags conv = Ok P ->
  forall f c x y, (f < nchan)%nat -> (c < ncorr)%nat -> in_image n n x y ->
  plane n D f c x y = spread n (plane n sky f c) (plane (2 * n) P f c) x y.
Proof. intros nrows nchan ncorr n uvw freq flags conv e l0 m0 dl dm sky V D P He Hw EV ED EP. exact (dirty_spread nrows nchan ncorr uvw freq flags conv e He n l0 m0 dl dm Hw P EP sky V D EV ED). Qed.
(* that point spread function is of the kind for which Hogbom CLEAN converges; its centre is the number of rows used *)
Theorem C118_psf : forall nrows nchan ncorr n uvw freq flags conv e dl dm P, im_sign conv e ->
  (forall r, (r < nrows)%nat -> uvw r 2%nat = 0) ->
  vis_to_im nrows (2 * n * (2 * n)) nchan ncorr true (fun _ _ _ => c1) uvw (psf_lm n dl dm) freq flags conv = Ok P ->
  forall f c, (f < nchan)%nat -> (c < ncorr)%nat -> (0 < n)%nat ->
  symmetric n (plane (2 * n) P f c) /\ positive n (plane (2 * n) P f c) /\ plane (2 * n) P f c (n - 1)%nat (n - 1)%nat = kept_rows nrows ncorr flags f.
Proof. intros nrows nchan ncorr n uvw freq flags conv e dl dm P He Hw EP f c Hf Hc Hn. exact (psf_kind nrows nchan ncorr uvw freq flags conv e He n dl dm Hw P EP f c Hf Hc Hn). Qed.
(* so deconvolving the two images, divided by that number, ends with the largest residual within the threshold *)
Theorem C118_clean : forall nrows nchan ncorr n uvw freq flags conv e l0 m0 dl dm sky V D P f c gamma threshold niter v C R, im_sign conv e ->
  (forall r, (r < nrows)%nat -> uvw r 2%nat = 0) ->
  im_to_vis nrows (n * n) nchan ncorr (fun s f c => ofR (sky s f c)) uvw (grid_lm n l0 m0 dl dm) freq conv = Ok V ->
  vis_to_im nrows (n * n) nchan ncorr true V uvw (grid_lm n l0 m0 dl dm) freq flags conv = Ok D ->
  vis_to_im nrows (2 * n * (2 * n)) nchan ncorr true (fun _ _ _ => c1) uvw (psf_lm n dl dm) freq flags conv = Ok P ->
  (f < nchan)%nat -> (c < ncorr)%nat -> (0 < n)%nat -> 0 < kept_rows nrows ncorr flags f ->
  let dirty := scaled (kept_rows nrows ncorr flags f) (plane n D f c) in
  let psf := scaled (kept_rows nrows ncorr flags f) (plane (2 * n) P f c) in
  0 <= gamma <= 2 -> 0 <= fraction threshold -> is_max n n dirty v ->
  hogbom_clean n n dirty (2 * n) (2 * n) psf gamma threshold niter = Ok (C, R) ->
  distance2 n psf (plane n sky f c) C <= distance2 n psf (plane n sky f c) (fun _ _ => 0) /\
  (let thr := fraction threshold * Rabs v in
   distance2 n psf (plane n sky f c) (fun _ _ => 0) < IZR (niter_of n niter + 1) * (gamma * (2 - gamma) * (thr * thr)) ->
   exists r, is_max n n R r /\ Rabs r <= thr).
Proof.
  intros nrows nchan ncorr n uvw freq flags conv e l0 m0 dl dm sky V D P f c gamma threshold niter v C R He Hw EV ED EP Hf Hc Hn HN dirty psf G T M E.
  destruct (C118_psf nrows nchan ncorr n uvw freq flags conv e dl dm P He Hw EP f c Hf Hc Hn) as (S & Ps & Ce).
  destruct (scaled_kind n _ (plane (2 * n) P f c) HN) as [S' Ps']. specialize (S' S). specialize (Ps' Ps).
  assert (C1 : psf (n - 1)%nat (n - 1)%nat = 1) by (unfold psf, scaled; rewrite Ce; field; lra).
  assert (Dy : forall x y, in_image n n x y -> dirty x y = spread n (plane n sky f c) psf x y).
  { intros x y I. unfold psf. rewrite scaled_spread. unfold dirty, scaled. f_equal.
    exact (dirty_spread nrows nchan ncorr uvw freq flags conv e He n l0 m0 dl dm Hw P EP sky V D EV ED f c x y Hf Hc I). }
  rewrite (distance2_0 n psf (plane n sky f c) dirty (fun _ _ => 0) Dy (fun _ _ => eq_refl)).
  split.
  - exact (proj2 (clean_improves n dirty psf (plane n sky f c) gamma threshold niter C R Hn S' Dy (proj1 G) ltac:(rewrite C1; lra) T E)).
  - intros thr L. apply (clean_converges n dirty psf (plane n sky f c) gamma threshold niter v C R Hn S' Ps' Dy (proj1 G) ltac:(rewrite C1; lra) T M); [|exact E].
    rewrite C1, Rmult_1_r. exact L.
Qed.
(* with a w component the image is no convolution *)
Theorem C118_w_refuted : ~ forall nrows nchan ncorr n uvw freq flags conv e l0 m0 dl dm sky V D P, im_sign conv e ->
  im_to_vis nrows (n * n) nchan ncorr (fun s f c => ofR (sky s f c)) uvw (grid_lm n l0 m0 dl dm) freq conv = Ok V ->
  vis_to_im nrows (n * n) nchan ncorr true V uvw (grid_lm n l0 m0 dl dm) freq flags conv = Ok D ->
  vis_to_im nrows (2 * n * (2 * n)) nchan ncorr true (fun _ _ _ => c1) uvw (psf_lm n dl dm) freq flags conv = Ok P ->
  forall f c x y, (f < nchan)%nat -> (c < ncorr)%nat -> in_image n n x y ->
  plane n D f c x y = spread n (plane n sky f c) (plane (2 * n) P f c) x y.
Proof.
  intros H.
  pose (uvw := (fun _ k => match k with O => 5 / 12 * PI | S O => 0 | _ => 5 / 4 * PI end) : arr2 R). pose (freq := (fun _ => light / (2 * PI)) : arr R).
  pose (sky := (fun s _ _ => if Nat.eqb s 2 then 1 else 0) : arr3 R). pose (flags := (fun _ _ _ => false) : arr3 bool).
  destruct (im_to_vis_value 1 (2 * 2) 1 1 (fun s f c => ofR (sky s f c)) uvw (grid_lm 2 0 0 (3 / 5) 0) freq "casa" 1 sgn_casa) as (V & EV & _).
  destruct (vis_to_im_value 1 (2 * 2) 1 1 V (part 1 flags V) uvw (grid_lm 2 0 0 (3 / 5) 0) freq flags "casa" 1 sgn_casa (part_ok _ _ _)) as (D & ED & _).
  destruct (vis_to_im_value 1 (2 * 2 * (2 * 2)) 1 1 (fun _ _ _ => c1) (part 1 flags (fun _ _ _ => c1)) uvw (psf_lm 2 (3 / 5) 0) freq flags "casa" 1 sgn_casa (part_ok _ _ _)) as (P & EP & _).
  specialize (H 1%nat 1%nat 1%nat 2%nat uvw freq flags "casa"%string 1 0 0 (3 / 5) 0 sky V D P sgn_casa EV ED EP 0%nat 0%nat 0%nat 0%nat ltac:(lia) ltac:(lia) ltac:(split; lia)).
  pose proof PI_RGT_0 as HPI.
  assert (HL : 2 * PI * (light / (2 * PI)) / light = 1). { unfold light. field. lra. }
  assert (D0 : plane 2 D 0 0 0%nat 0%nat = 1).
  { unfold plane. rewrite (dirty_value 1 1 1 uvw freq flags "casa" 1 sgn_casa _ _ _ _ _ EV ED) by (cbn; lia).
    change (0 + sky 0%nat 0%nat 0%nat * rsum 1 (fun r => (if fl 1 flags r 0 then 0 else 1) * cos (src_delay (grid_lm 2 0 0 (3 / 5) 0) uvw freq 0 r 0 - src_delay (grid_lm 2 0 0 (3 / 5) 0) uvw freq 0 r 0))
       + sky 1%nat 0%nat 0%nat * rsum 1 (fun r => (if fl 1 flags r 0 then 0 else 1) * cos (src_delay (grid_lm 2 0 0 (3 / 5) 0) uvw freq 0 r 0 - src_delay (grid_lm 2 0 0 (3 / 5) 0) uvw freq 1 r 0))
       + sky 2%nat 0%nat 0%nat * (0 + 1 * cos (src_delay (grid_lm 2 0 0 (3 / 5) 0) uvw freq 0 0 0 - src_delay (grid_lm 2 0 0 (3 / 5) 0) uvw freq 2 0 0))
       + sky 3%nat 0%nat 0%nat * rsum 1 (fun r => (if fl 1 flags r 0 then 0 else 1) * cos (src_delay (grid_lm 2 0 0 (3 / 5) 0) uvw freq 0 r 0 - src_delay (grid_lm 2 0 0 (3 / 5) 0) uvw freq 3 r 0)) = 1).
    unfold sky. cbn [Nat.eqb].
    assert (S0 : src_delay (grid_lm 2 0 0 (3 / 5) 0) uvw freq 0 0 0 = 0).
    { unfold src_delay, delay, grid_lm, uvw, freq, n1. rewrite HL. cbn [Nat.div Nat.modulo Nat.divmod fst snd INR Nat.sub].
      replace (1 - (0 + 0 * (3 / 5)) * (0 + 0 * (3 / 5)) - (0 + 0 * 0) * (0 + 0 * 0)) with 1 by ring. rewrite sqrt_1. ring. }
    assert (S2 : src_delay (grid_lm 2 0 0 (3 / 5) 0) uvw freq 2 0 0 = 0).
    { unfold src_delay, delay, grid_lm, uvw, freq, n1. rewrite HL. cbn [Nat.div Nat.modulo Nat.divmod fst snd INR Nat.sub].
      replace (1 - (0 + 1 * (3 / 5)) * (0 + 1 * (3 / 5)) - (0 + 0 * 0) * (0 + 0 * 0)) with ((4 / 5) * (4 / 5)) by field. rewrite sqrt_square by lra. field. }
    rewrite S0, S2, Rminus_0_r, cos_0. ring. }
  assert (P0 : spread 2 (plane 2 sky 0 0) (plane 4 P 0 0) 0 0 = 0).
  { change (0 + (0 + sky 0%nat 0%nat 0%nat * plane 4 P 0 0 1%nat 1%nat + sky 1%nat 0%nat 0%nat * plane 4 P 0 0 1%nat 0%nat)
      + (0 + sky 2%nat 0%nat 0%nat * plane 4 P 0 0 0%nat 1%nat + sky 3%nat 0%nat 0%nat * plane 4 P 0 0 0%nat 0%nat) = 0).
    unfold sky. cbn [Nat.eqb].
    assert (Z : plane 4 P 0 0 0%nat 1%nat = 0); [|rewrite Z; ring].
    unfold plane. rewrite (psf_value 1 1 1 uvw freq flags "casa" 1 sgn_casa _ _ _ EP) by (cbn; lia).
    change (0 + 1 * cos (src_delay (psf_lm 2 (3 / 5) 0) uvw freq 1 0 0) = 0).
    replace (src_delay (psf_lm 2 (3 / 5) 0) uvw freq 1 0 0) with (- (PI / 2)); [rewrite cos_neg, cos_PI2; ring|].
    unfold src_delay, delay, psf_lm, grid_lm, uvw, freq, n1. rewrite HL. cbn [Nat.div Nat.modulo Nat.divmod fst snd INR Nat.sub Nat.mul Nat.add].
    replace (1 - (- (1 * (3 / 5)) + 0 * (3 / 5)) * (- (1 * (3 / 5)) + 0 * (3 / 5)) - (- (1 * 0) + 1 * 0) * (- (1 * 0) + 1 * 0)) with ((4 / 5) * (4 / 5)) by field.
    rewrite sqrt_square by lra. field. }
  change (2 * 2)%nat with 4%nat in H. rewrite D0, P0 in H. lra.
Qed.

Print Assumptions C118_dirty_is_convolution.
Print Assumptions C118_psf.
Print Assumptions C118_clean.
Print Assumptions C118_w_refuted.

(* a case: three rows, one of them flagged, two channels, images of 4 by 4 pixels; every hypothesis holds *)
Example case_118 : let uvw := (fun r k => match k with 2%nat => 0 | _ => INR (r + k) end) : arr2 R in let flags := (fun r _ _ => Nat.eqb r 1) : arr3 bool in
  let sky := (fun s _ _ => INR s) : arr3 R in let freq := (fun f => INR (S f)) : arr R in
  (forall r, (r < 3)%nat -> uvw r 2%nat = 0) /\ kept_rows 3 1 flags 0 = 2 /\ exists V D P,
  im_to_vis 3 (4 * 4) 2 1 (fun s f c => ofR (sky s f c)) uvw (grid_lm 4 (-1 / 50) (-1 / 50) (1 / 100) (1 / 100)) freq "fourier" = Ok V /\
  vis_to_im 3 (4 * 4) 2 1 true V uvw (grid_lm 4 (-1 / 50) (-1 / 50) (1 / 100) (1 / 100)) freq flags "fourier" = Ok D /\
  vis_to_im 3 (2 * 4 * (2 * 4)) 2 1 true (fun _ _ _ => c1) uvw (psf_lm 4 (1 / 100) (1 / 100)) freq flags "fourier" = Ok P.
Proof.
  cbv zeta. split; [reflexivity|]. split; [change (0 + 1 + 0 + 1 = 2); ring|].
  do 3 eexists. split; [reflexivity|]. split; reflexivity.
Qed.
