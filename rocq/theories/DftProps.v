(* C47 adjointness and linearity, C48 flags, rows and chunks, C49 sum over pixels *)
From Coq Require Import Reals Lra String.
From Verif Require Import Prelude CRing CplxR RimeModel RimeSpec DftModel DftSpec DftProofs.
Open Scope R_scope.

(* ---------- C47 ---------- *)
(* W is V with the flagged samples set to zero; without flags W is V *)
Theorem C47_adjoint : forall nrows nsrc nchan ncorr uvw lm freq conv e flags V W (x : arr3 R), im_sign conv e ->
  unflagged_part ncorr flags V W ->
  exists A y, im_to_vis nrows nsrc nchan ncorr (fun s f c => ofR (x s f c)) uvw lm freq conv = Ok A /\
    vis_to_im nrows nsrc nchan ncorr true V uvw lm freq flags conv = Ok y /\
    vis_inner nrows nchan ncorr W A = im_inner nsrc nchan ncorr y x.
Proof. exact adjoint. Qed.
Theorem C47_im_to_vis_linear : forall nrows nsrc nchan ncorr uvw lm freq conv e (a b : RC) x y z, im_sign conv e ->
  (forall s f c, z s f c = cadd (cmul a (x s f c)) (cmul b (y s f c))) ->
  exists X Y Z, im_to_vis nrows nsrc nchan ncorr x uvw lm freq conv = Ok X /\
    im_to_vis nrows nsrc nchan ncorr y uvw lm freq conv = Ok Y /\
    im_to_vis nrows nsrc nchan ncorr z uvw lm freq conv = Ok Z /\
    forall r f c, (r < nrows)%nat -> (f < nchan)%nat -> (c < ncorr)%nat ->
      Z r f c = cadd (cmul a (X r f c)) (cmul b (Y r f c)).
Proof. exact im_to_vis_linear. Qed.
Theorem C47_vis_to_im_linear : forall nrows nsrc nchan ncorr uvw lm freq flags conv e (a b : R) x y z, im_sign conv e ->
  (forall r f c, z r f c = cadd (cmul (ofR a) (x r f c)) (cmul (ofR b) (y r f c))) ->
  exists X Y Z, vis_to_im nrows nsrc nchan ncorr true x uvw lm freq flags conv = Ok X /\
    vis_to_im nrows nsrc nchan ncorr true y uvw lm freq flags conv = Ok Y /\
    vis_to_im nrows nsrc nchan ncorr true z uvw lm freq flags conv = Ok Z /\
    forall s f c, (s < nsrc)%nat -> (f < nchan)%nat -> (c < ncorr)%nat -> Z s f c = a * X s f c + b * Y s f c.
Proof. exact vis_to_im_linear. Qed.
Theorem C47_vis_to_im_value : forall nrows nsrc nchan ncorr vis W uvw lm freq flags conv e, im_sign conv e ->
  unflagged_part ncorr flags vis W ->
  exists x, vis_to_im nrows nsrc nchan ncorr true vis uvw lm freq flags conv = Ok x /\
    forall s f c, (s < nsrc)%nat -> (f < nchan)%nat -> (c < ncorr)%nat ->
      x s f c = rsum nrows (fun r => re (cmul (cconj (cis (e * src_delay lm uvw freq s r f))) (W r f c))).
Proof. exact vis_to_im_value. Qed.
(* unflagged visibilities are their own unflagged part; one flag removes a whole (row, channel) *)
Example C47_no_flags : forall ncorr V, unflagged_part ncorr (fun _ _ _ => false) V V.
Proof. intros ncorr V r f c. split; auto. intros (k & _ & E). discriminate. Qed.
Example C47_some_flags : forall V, unflagged_part 2 (fun r _ c => (Nat.eqb r 0 && Nat.eqb c 1)%bool) V
  (fun r f c => if Nat.eqb r 0 then c0 else V r f c).
Proof.
  intros V r f c. destruct r; cbn; split; auto.
  - intros N. destruct N. exists 1%nat. auto.
  - intros (k & _ & E). discriminate.
Qed.

(* ---------- C48 ---------- *)
Theorem C48_rows : forall n1 n2 nsrc nchan ncorr uvw lm freq flags conv e V, im_sign conv e ->
  exists X Y Z, vis_to_im n1 nsrc nchan ncorr true V uvw lm freq flags conv = Ok X /\
    vis_to_im n2 nsrc nchan ncorr true (fun r => V (n1 + r)%nat) (fun r => uvw (n1 + r)%nat) lm freq (fun r => flags (n1 + r)%nat) conv = Ok Y /\
    vis_to_im (n1 + n2) nsrc nchan ncorr true V uvw lm freq flags conv = Ok Z /\
    forall s f c, (s < nsrc)%nat -> (f < nchan)%nat -> (c < ncorr)%nat -> Z s f c = X s f c + Y s f c.
Proof. exact vis_to_im_rows. Qed.
Theorem C48_flagged : forall nrows nsrc nchan ncorr uvw lm freq flags conv e V V', im_sign conv e ->
  (forall r f c, ~ flagged ncorr flags r f -> V r f c = V' r f c) ->
  exists X Y, vis_to_im nrows nsrc nchan ncorr true V uvw lm freq flags conv = Ok X /\
    vis_to_im nrows nsrc nchan ncorr true V' uvw lm freq flags conv = Ok Y /\
    forall s f c, (s < nsrc)%nat -> (f < nchan)%nat -> (c < ncorr)%nat -> X s f c = Y s f c.
Proof. exact vis_to_im_flagged. Qed.
Theorem C48_chunks : forall rows chan corr src V uvw lm freq flags conv e, im_sign conv e ->
  (corr = [list_sum corr] \/ (forall r f c c', (c < list_sum corr)%nat -> (c' < list_sum corr)%nat -> flags r f c = flags r f c')) ->
  exists X Y, dask_vis_to_im rows chan corr rows src chan rows chan corr V uvw lm freq flags conv = Ok X /\
    vis_to_im (list_sum rows) (list_sum src) (list_sum chan) (list_sum corr) true V uvw lm freq flags conv = Ok Y /\
    forall s f c, (s < list_sum src)%nat -> (f < list_sum chan)%nat -> (c < list_sum corr)%nat -> X s f c = Y s f c.
Proof. exact dask_vis_to_im_eq. Qed.
(* with flags that differ between correlations, splitting the correlations changes the image *)
Theorem C48_corr_chunks_refuted : exists V uvw lm freq flags X Y,
  dask_vis_to_im [1%nat] [1%nat] [1%nat; 1%nat] [1%nat] [1%nat] [1%nat] [1%nat] [1%nat] [1%nat; 1%nat] V uvw lm freq flags "fourier" = Ok X /\
  vis_to_im 1 1 1 2 true V uvw lm freq flags "fourier" = Ok Y /\ X 0%nat 0%nat 1%nat = 1 /\ Y 0%nat 0%nat 1%nat = 0.
Proof. exact dask_vis_to_im_corr_refuted. Qed.
Theorem C48_chunk_checks : forall rows chan corr urow src fchan frow flchan fcorr V uvw lm freq flags conv X,
  dask_vis_to_im rows chan corr urow src fchan frow flchan fcorr V uvw lm freq flags conv = Ok X ->
  urow = rows /\ fchan = chan /\ frow = rows /\ flchan = chan /\ fcorr = corr.
Proof. exact dask_vis_to_im_checks. Qed.
Theorem C48_unknown_convention : forall nrows nsrc nchan ncorr V uvw lm freq flags conv,
  conv <> "fourier"%string -> conv <> "casa"%string ->
  vis_to_im nrows nsrc nchan ncorr true V uvw lm freq flags conv = Raise ValueError.
Proof. exact vis_to_im_unknown. Qed.

(* ---------- C49 ---------- *)
Theorem C49_sum_over_pixels : forall nrows nsrc nchan ncorr image uvw lm freq conv e, im_sign conv e ->
  exists V, im_to_vis nrows nsrc nchan ncorr image uvw lm freq conv = Ok V /\
    forall r f c, (r < nrows)%nat -> (f < nchan)%nat -> (c < ncorr)%nat ->
      V r f c = csum nsrc (fun s => cmul (cis (e * src_delay lm uvw freq s r f)) (image s f c)).
Proof. exact im_to_vis_value. Qed.
Theorem C49_unknown_convention : forall nrows nsrc nchan ncorr image uvw lm freq conv,
  conv <> "fourier"%string -> conv <> "casa"%string ->
  im_to_vis nrows nsrc nchan ncorr image uvw lm freq conv = Raise ValueError.
Proof. exact im_to_vis_unknown. Qed.
Theorem C49_chunks : forall rows nsrc chan corr image uvw lm freq conv e, im_sign conv e ->
  exists X Y, dask_im_to_vis rows [nsrc] [nsrc] chan corr chan image uvw lm freq conv = Ok X /\
    im_to_vis (list_sum rows) nsrc (list_sum chan) (list_sum corr) image uvw lm freq conv = Ok Y /\
    forall r f c, (r < list_sum rows)%nat -> (f < list_sum chan)%nat -> (c < list_sum corr)%nat -> X r f c = Y r f c.
Proof. exact dask_im_to_vis_eq. Qed.
Theorem C49_chunk_checks : forall rows lm_src im_src im_chan im_corr freq_chan image uvw lm freq conv X,
  dask_im_to_vis rows lm_src im_src im_chan im_corr freq_chan image uvw lm freq conv = Ok X ->
  hd O lm_src = list_sum lm_src /\ hd O im_src = list_sum im_src /\ hd O im_src = hd O lm_src /\ im_chan = freq_chan.
Proof. exact dask_im_to_vis_checks. Qed.
Example C49_conventions : im_sign "fourier" (-1) /\ im_sign "casa" 1.
Proof. split; constructor. Qed.

Print Assumptions C47_adjoint.
Print Assumptions C47_im_to_vis_linear.
Print Assumptions C47_vis_to_im_linear.
Print Assumptions C47_vis_to_im_value.
Print Assumptions C48_rows.
Print Assumptions C48_flagged.
Print Assumptions C48_chunks.
Print Assumptions C48_corr_chunks_refuted.
Print Assumptions C48_chunk_checks.
Print Assumptions C48_unknown_convention.
Print Assumptions C49_sum_over_pixels.
Print Assumptions C49_unknown_convention.
Print Assumptions C49_chunks.
Print Assumptions C49_chunk_checks.
