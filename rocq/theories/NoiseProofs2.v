(* C125: noise of visibilities in the image. *)
From Coq Require Import Reals Lra Lia Psatz String.
From Verif Require Import Prelude PreludeFacts CRing CplxR RimeModel RimeSpec RimeProofs DftModel DftSpec DftProofs HogModel HogSpec HogProofs CleanSpec CleanProofs RdftProofs3 ImgSpec ImgProofs IsoSpec IsoProofs SynSpec SynProofs NoiseSpec NoiseProofs.
Open Scope R_scope.

Lemma turned_le t a b eps : 0 <= eps -> a ^ 2 + b ^ 2 <= eps ^ 2 -> Rabs (cos t * a + sin t * b) <= eps.
Proof.
  intros He H. rewrite <- (Rabs_pos_eq eps He). apply Rsqr_le_abs_0. unfold Rsqr. pose proof (sin2_cos2 t) as P. unfold Rsqr in P.
  assert (0 <= (sin t * a - cos t * b) ^ 2) by apply pow2_ge_0.
  assert ((cos t * a + sin t * b) * (cos t * a + sin t * b) = (sin t * sin t + cos t * cos t) * (a ^ 2 + b ^ 2) - (sin t * a - cos t * b) ^ 2) as -> by ring.
  rewrite P. lra.
Qed.

Lemma vis_noise nrows nsrc nchan ncorr uvw lm freq flags conv e V W D D' eps : im_sign conv e ->
  vis_to_im nrows nsrc nchan ncorr true V uvw lm freq flags conv = Ok D -> vis_to_im nrows nsrc nchan ncorr true W uvw lm freq flags conv = Ok D' ->
  0 <= eps -> forall s f c, (s < nsrc)%nat -> (f < nchan)%nat -> (c < ncorr)%nat -> noisy_vis nrows ncorr flags f c eps V W ->
  Rabs (D' s f c - D s f c) <= eps * kept_rows nrows ncorr flags f.
Proof.
  intros He ED ED' H0 s f c Hs Hf Hc Hv.
  destruct (vis_to_im_value nrows nsrc nchan ncorr V (part ncorr flags V) uvw lm freq flags conv e He (part_ok _ _ _)) as (x & Ex & X).
  rewrite ED in Ex. injection Ex as <-.
  destruct (vis_to_im_value nrows nsrc nchan ncorr W (part ncorr flags W) uvw lm freq flags conv e He (part_ok _ _ _)) as (x' & Ex' & X').
  rewrite ED' in Ex'. injection Ex' as <-. rewrite X, X' by assumption.
  unfold kept_rows. rewrite <- rsum_scale, <- rsum_sub. eapply Rle_trans; [apply rsum_abs|]. apply rsum_le. intros r Hr.
  unfold part, fl. destruct (existsb (fun c => flags r f c) (seq 0 ncorr)) eqn:Ef.
  - right. rewrite Rmult_0_r. unfold Rminus. rewrite Rplus_opp_r. apply Rabs_R0.
  - rewrite Rmult_1_r. assert (NF : ~ flagged ncorr flags r f). { intros Q. apply fl_spec in Q. unfold fl in Q. congruence. }
    pose proof (turned_le (e * src_delay lm uvw freq s r f) _ _ eps H0 (Hv r Hr NF)) as Q. eapply Rle_trans; [|exact Q]. right. f_equal. unfold re, im. cbn. ring.
Qed.

Section Imaged.
  Context (nrows nchan ncorr n : nat) (uvw : arr2 R) (freq : arr R) (flags : arr3 bool) (conv : string) (e : R) (l0 m0 dl dm : R) (sky : arr3 R) (V W : arr3 RC) (D P : arr3 R).
  Context (He : im_sign conv e) (Hw : forall r, (r < nrows)%nat -> uvw r 2%nat = 0).
  Context (EV : im_to_vis nrows (n * n) nchan ncorr (fun s f c => ofR (sky s f c)) uvw (grid_lm n l0 m0 dl dm) freq conv = Ok V).
  Context (ED : vis_to_im nrows (n * n) nchan ncorr true W uvw (grid_lm n l0 m0 dl dm) freq flags conv = Ok D).
  Context (EP : vis_to_im nrows (2 * n * (2 * n)) nchan ncorr true (fun _ _ _ => c1) uvw (psf_lm n dl dm) freq flags conv = Ok P).
  Context (f c : nat) (Hf : (f < nchan)%nat) (Hc : (c < ncorr)%nat) (eps : R) (Eps : 0 <= eps) (Noise : noisy_vis nrows ncorr flags f c eps V W).
  Notation N := (kept_rows nrows ncorr flags f).
  Context (Some_rows : 0 < N).
  Lemma imaged_noise : noisy_image n (scaled N (plane (2 * n) P f c)) (plane n sky f c) eps (scaled N (plane n D f c)).
  Proof using He Hw EV ED EP Hf Hc Eps Noise Some_rows.
    destruct (vis_to_im_value nrows (n * n) nchan ncorr V (part ncorr flags V) uvw (grid_lm n l0 m0 dl dm) freq flags conv e He (part_ok _ _ _)) as (D0 & ED0 & _).
    intros x y I. rewrite <- (imaged_dirty nrows nchan ncorr n uvw freq flags conv e l0 m0 dl dm sky V D0 P He Hw EV ED0 EP f c Hf Hc x y I).
    unfold scaled, plane. destruct I as [Hx Hy].
    pose proof (vis_noise nrows (n * n) nchan ncorr uvw (grid_lm n l0 m0 dl dm) freq flags conv e V W D0 D eps He ED0 ED Eps (x * n + y) f c ltac:(nia) Hf Hc Noise) as H.
    replace (D (x * n + y)%nat f c / N - D0 (x * n + y)%nat f c / N) with ((D (x * n + y)%nat f c - D0 (x * n + y)%nat f c) * / N) by (field; lra).
    rewrite Rabs_mult, (Rabs_right (/ N)) by (left; now apply Rinv_0_lt_compat).
    apply (Rmult_le_reg_r N); [exact Some_rows|]. rewrite Rmult_assoc, Rinv_l by lra. lra.
  Qed.
End Imaged.
