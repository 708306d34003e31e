(* C125: CLEAN of noisy images. *)
From Coq Require Import Reals Lra Lia String.
From Verif Require Import Prelude CRing CplxR RimeModel RimeSpec RimeProofs DftModel DftSpec DftProofs HogModel HogSpec HogProofs CleanSpec CleanProofs ImgSpec ImgProofs IsoSpec IsoProofs IsoProps SynSpec SynProofs NoiseSpec NoiseProofs NoiseProofs2.
Open Scope R_scope.

(* The dirty image is within eps of the response of K sources, and the threshold is far enough above eps.  No component is put where
   there is no source, none exceeds its source, the largest residual bounds what is missing, and with enough cycles every source
   is found to within threshold and noise. *)
Theorem C125_image : forall n psf mu S gamma eps v threshold sky dirty niter C R, (0 < n)%nat -> 0 <= mu < 1 -> sidelobes n psf mu -> sources_at n S sky ->
  2 * mu * INR (length S) < 1 + mu -> 0 <= eps -> noisy_image n psf sky eps dirty -> is_max n n dirty v -> 0 <= fraction threshold ->
  let thr := fraction threshold * Rabs v in
  stands_out (length S) mu gamma eps thr ->
  hogbom_clean n n dirty (2 * n) (2 * n) psf gamma threshold niter = Ok (C, R) ->
  (forall x y, in_image n n x y -> 0 <= C x y <= sky x y) /\
  (exists r, is_max n n R r /\ forall x y, in_image n n x y -> (1 + mu - mu * INR (length S)) * (sky x y - C x y) <= r + eps) /\
  (flux n sky < IZR (niter_of n niter + 1) * (gamma * thr) ->
   forall x y, in_image n n x y -> sky x y - C x y <= (thr + eps) / (1 + mu - mu * INR (length S))).
Proof.
  intros n psf mu S gamma eps v threshold sky dirty niter C R Hn Mu Side Sky Few Eps Dirty Mv T thr Out.
  exact (noise_clean n psf mu Hn Mu Side S gamma eps v threshold Few Eps T Out sky Sky dirty Dirty Mv niter C R).
Qed.
(* Errors of at most eps of the visibilities are errors of at most eps of the image divided by the number of rows used. *)
Theorem C125_visibilities : forall nrows nsrc nchan ncorr uvw lm freq flags conv e V W D D' eps, im_sign conv e ->
  vis_to_im nrows nsrc nchan ncorr true V uvw lm freq flags conv = Ok D -> vis_to_im nrows nsrc nchan ncorr true W uvw lm freq flags conv = Ok D' ->
  0 <= eps -> forall s f c, (s < nsrc)%nat -> (f < nchan)%nat -> (c < ncorr)%nat -> noisy_vis nrows ncorr flags f c eps V W ->
  Rabs (D' s f c - D s f c) <= eps * kept_rows nrows ncorr flags f.
Proof. exact vis_noise. Qed.
(* Together: visibilities W within eps of those of K sources, imaged and deconvolved. *)
Theorem C125_sources : forall nrows nchan ncorr n uvw freq flags conv e l0 m0 dl dm sky V W D P f c mu S gamma eps threshold niter v C R, im_sign conv e ->
  (forall r, (r < nrows)%nat -> uvw r 2%nat = 0) ->
  im_to_vis nrows (n * n) nchan ncorr (fun s f c => ofR (sky s f c)) uvw (grid_lm n l0 m0 dl dm) freq conv = Ok V ->
  0 <= eps -> noisy_vis nrows ncorr flags f c eps V W ->
  vis_to_im nrows (n * n) nchan ncorr true W uvw (grid_lm n l0 m0 dl dm) freq flags conv = Ok D ->
  vis_to_im nrows (2 * n * (2 * n)) nchan ncorr true (fun _ _ _ => c1) uvw (psf_lm n dl dm) freq flags conv = Ok P ->
  (f < nchan)%nat -> (c < ncorr)%nat -> (0 < n)%nat -> 0 < kept_rows nrows ncorr flags f ->
  let dirty := scaled (kept_rows nrows ncorr flags f) (plane n D f c) in
  let psf := scaled (kept_rows nrows ncorr flags f) (plane (2 * n) P f c) in
  0 <= mu < 1 -> sidelobes n psf mu -> sources_at n S (plane n sky f c) -> 2 * mu * INR (length S) < 1 + mu ->
  0 <= fraction threshold -> is_max n n dirty v ->
  let thr := fraction threshold * Rabs v in
  stands_out (length S) mu gamma eps thr ->
  hogbom_clean n n dirty (2 * n) (2 * n) psf gamma threshold niter = Ok (C, R) ->
  (forall x y, in_image n n x y -> 0 <= C x y <= plane n sky f c x y) /\
  (flux n (plane n sky f c) < IZR (niter_of n niter + 1) * (gamma * thr) ->
   forall x y, in_image n n x y -> plane n sky f c x y - C x y <= (thr + eps) / (1 + mu - mu * INR (length S))).
Proof.
  intros nrows nchan ncorr n uvw freq flags conv e l0 m0 dl dm sky V W D P f c mu S gamma eps threshold niter v C R He Hw EV Eps Noise ED EP Hf Hc Hn Rows dirty psf Mu Side Sky Few T Mv thr Out E.
  pose proof (imaged_noise nrows nchan ncorr n uvw freq flags conv e l0 m0 dl dm sky V W D P He Hw EV ED EP f c Hf Hc eps Eps Noise Rows) as Dirty.
  destruct (C125_image n psf mu S gamma eps v threshold _ dirty niter C R Hn Mu Side Sky Few Eps Dirty Mv T Out E) as (A & _ & B). split; assumption.
Qed.
(* With a threshold below the noise, noise becomes components. *)
Theorem C125_low_threshold_refuted : ~ forall n psf mu S gamma eps threshold sky dirty niter C R, (0 < n)%nat -> 0 <= mu < 1 -> sidelobes n psf mu -> sources_at n S sky ->
  2 * mu * INR (length S) < 1 + mu -> gain_fits (length S) mu gamma -> 0 <= eps -> noisy_image n psf sky eps dirty -> 0 <= fraction threshold ->
  hogbom_clean n n dirty (2 * n) (2 * n) psf gamma threshold niter = Ok (C, R) ->
  forall x y, in_image n n x y -> 0 <= C x y <= sky x y.
Proof.
  intros H. pose (one := (fun _ _ => 1) : arr2 R). pose (none := (fun _ _ => 0) : arr2 R).
  destruct (hogbom_spec 1 one one 1 (Some 0) (Some 0%Z) ltac:(lia)) as (v & k & Cs & Rs & Mv & E & Kk & C0 & R0 & Run & Stop).
  cbv zeta in Run, Stop. rewrite Rmult_0_l in Run, Stop. change (niter_of 1 (Some 0%Z)) with 0%Z in *. change (Z.to_nat (0 + 1)) with 1%nat in *.
  assert (V1 : forall w, is_max 1 1 one w -> w = 1) by (intros w [(x & y & I & <-) _]; reflexivity).
  assert (k = 1%nat) as ->.
  { destruct (Nat.eq_dec k 0) as [->|]; [|lia]. destruct (Stop ltac:(lia)) as (w & Mw & B). rewrite R0 in Mw. apply V1 in Mw. subst w. rewrite Rabs_R1 in B. lra. }
  destruct (Run 0%nat ltac:(lia)) as (w & p & q & Mw & L & _ & Cy & _). rewrite R0 in Mw, L. apply V1 in Mw. subst w.
  destruct L as ([Hp Hq] & _). assert (p = 0%nat) as -> by lia. assert (q = 0%nat) as -> by lia.
  assert (Sd : sidelobes 1 one 0). { split; [reflexivity|]. intros x y p q [? ?] [? ?] N. exfalso. apply N. f_equal; lia. }
  assert (Sr : sources_at 1 [] none). { intros x y _. split; [unfold none; lra|]. intros N. exfalso. apply N. reflexivity. }
  assert (Ny : noisy_image 1 one none 1 one). { intros x y _. unfold spread, one, none. cbn. rewrite Rabs_right; lra. }
  specialize (H 1%nat one 0 [] 1 1 (Some 0) none one (Some 0%Z) (Cs 1%nat) (Rs 1%nat) ltac:(lia) ltac:(lra) Sd Sr ltac:(cbn; lra) ltac:(split; cbn; lra) ltac:(lra) Ny ltac:(cbn; lra) E
    0%nat 0%nat ltac:(split; lia)).
  rewrite Cy, C0 in H. unfold none in H. cbn in H. lra.
Qed.

(* Two sources of 3 and 5 on sidelobes of a tenth, errors of a tenth in every pixel, the default threshold and gain 1/10. *)
Example two_in_noise : forall dirty C R, noisy_image 2 (pedestal_psf 2 (1 / 10)) two_sky (1 / 10) dirty ->
  hogbom_clean 2 2 dirty (2 * 2) (2 * 2) (pedestal_psf 2 (1 / 10)) (1 / 10) None (Some 100%Z) = Ok (C, R) ->
  0 <= 3 - C 0%nat 0%nat <= 118 / 90 /\ 0 <= 5 - C 1%nat 1%nat <= 118 / 90 /\ C 0%nat 1%nat = 0 /\ C 1%nat 0%nat = 0.
Proof.
  intros dirty C R Ny E.
  assert (Val : forall x y, in_image 2 2 x y -> spread 2 two_sky (pedestal_psf 2 (1 / 10)) x y = if Nat.eqb x y then (if Nat.eqb x 0 then 35 / 10 else 53 / 10) else 8 / 10).
  { intros x y [Hx Hy]. destruct x as [|[|x]]; try lia; destruct y as [|[|y]]; try lia; unfold spread, two_sky, pedestal_psf; cbn; lra. }
  assert (Side : sidelobes 2 (pedestal_psf 2 (1 / 10)) (1 / 10)).
  { split; [reflexivity|]. intros x y p q [Hx Hy] [Hp Hq] N. unfold pedestal_psf. rewrite Rabs_right.
    - destruct x as [|[|x]]; try lia; destruct p as [|[|p]]; try lia; destruct y as [|[|y]]; try lia; destruct q as [|[|q]]; try lia; try congruence; cbn; lra.
    - destruct (_ && _)%bool; lra. }
  assert (Sky : sources_at 2 [(0, 0); (1, 1)]%nat two_sky).
  { intros x y [Hx Hy]. destruct x as [|[|x]]; try lia; destruct y as [|[|y]]; try lia; unfold two_sky; cbn; split; try lra; tauto. }
  pose proof (amax_spec 2 2 dirty ltac:(lia) ltac:(lia)) as Mv. set (v := amax 2 2 dirty) in *.
  assert (Vb : 52 / 10 <= v <= 54 / 10).
  { destruct Mv as [(x & y & I & <-) B]. split.
    - pose proof (B 1%nat 1%nat ltac:(split; lia)) as Q. pose proof (Ny 1%nat 1%nat ltac:(split; lia)) as W. rewrite Val in W by (split; lia). apply abs_le_inv in W. cbn in W. lra.
    - pose proof (Ny x y I) as W. rewrite Val in W by exact I. apply abs_le_inv in W. destruct (Nat.eqb x y), (Nat.eqb x 0); lra. }
  destruct (C125_image 2 (pedestal_psf 2 (1 / 10)) (1 / 10) [(0, 0); (1, 1)]%nat (1 / 10) (1 / 10) v None two_sky dirty (Some 100%Z) C R ltac:(lia) ltac:(lra) Side Sky
    ltac:(cbn; lra) ltac:(lra) Ny Mv ltac:(cbn; lra)) as (A & _ & F); [|exact E|].
  - unfold stands_out, margin, fraction. cbn [length INR]. rewrite Rabs_right by lra. repeat split; lra.
  - assert (Fl : flux 2 two_sky = 8) by (unfold flux, two_sky; cbn; lra). rewrite Fl in F.
    cbn [fraction niter_of length INR] in F. rewrite Rabs_right in F by lra. change (100 + 1)%Z with 101%Z in F. specialize (F ltac:(lra)).
    replace (1 + 1 / 10 - 1 / 10 * (1 + 1)) with (9 / 10) in F by field.
    pose proof (A 0%nat 0%nat ltac:(split; lia)) as A00. pose proof (A 1%nat 1%nat ltac:(split; lia)) as A11.
    pose proof (A 0%nat 1%nat ltac:(split; lia)) as A01. pose proof (A 1%nat 0%nat ltac:(split; lia)) as A10.
    pose proof (F 0%nat 0%nat ltac:(split; lia)) as F00. pose proof (F 1%nat 1%nat ltac:(split; lia)) as F11.
    unfold two_sky in *. cbn [Nat.eqb] in A00, A11, A01, A10, F00, F11. unfold Rdiv in F00, F11. rewrite Rinv_mult, Rinv_inv in F00, F11. repeat split; lra.
Qed.
Print Assumptions C125_image. Print Assumptions C125_visibilities. Print Assumptions C125_sources. Print Assumptions C125_low_threshold_refuted.
