(* C122: rounding errors of Hogbom CLEAN. *)
From Coq Require Import Reals Lra Lia.
From Verif Require Import Prelude CRing CplxR HogModel HogSpec RoundModel RoundSpec RhogModel RhogSpec RhogProofs RhogProofs2 RhogProofs3.
Open Scope R_scope.

(* With no rounding the model is that of C44-C46; with any rounding a square image and a PSF of twice its size are cleaned. *)
Theorem C122_unrounded : forall ny nx dirty py px psf g threshold niter,
  rhogbom_clean (fun x => x) ny nx dirty py px psf g threshold niter = hogbom_clean ny nx dirty py px psf g threshold niter.
Proof. exact unrounded. Qed.
Theorem C122_total : forall fl n dirty psf g threshold niter, (0 < n)%nat ->
  exists C R, rhogbom_clean fl n n dirty (2 * n) (2 * n) psf g threshold niter = Ok (C, R).
Proof. exact rounded_total. Qed.
(* The PSF is one at its centre and the gain at most one.  The components are not negative, and residual plus components convolved
   with the PSF are the dirty image up to the errors of niter + 1 cycles. *)
Theorem C122_flux : forall fl u, rounding fl u -> forall n psf g dirty threshold niter C R, (0 < n)%nat -> psf (n - 1)%nat (n - 1)%nat = 1 -> 0 <= g <= 1 ->
  machine fl n dirty -> (exists x y, in_image n n x y /\ 0 <= dirty x y) ->
  rhogbom_clean fl n n dirty (2 * n) (2 * n) psf g threshold niter = Ok (C, R) ->
  forall x y, in_image n n x y -> 0 <= C x y /\
    Rabs (dirty x y - (R x y + spread n C psf x y)) <= cycle_loss u (Z.to_nat (niter_of n niter + 1)) (dirty x y) (spread n C (absolute psf) x y).
Proof.
  intros fl u H n psf g dirty threshold niter C R Hn Ce Hg M P E. exact (proj1 (rounded_flux fl u H n Hn psf Ce g Hg dirty threshold niter C R M P E)).
Qed.
(* The residual is again an image that can be cleaned: machine numbers, not all of them negative. *)
Theorem C122_residual : forall fl u, rounding fl u -> forall n psf g dirty threshold niter C R, (0 < n)%nat -> psf (n - 1)%nat (n - 1)%nat = 1 -> 0 <= g <= 1 ->
  machine fl n dirty -> (exists x y, in_image n n x y /\ 0 <= dirty x y) ->
  rhogbom_clean fl n n dirty (2 * n) (2 * n) psf g threshold niter = Ok (C, R) ->
  (exists x y, in_image n n x y /\ 0 <= R x y) /\ machine fl n R.
Proof.
  intros fl u H n psf g dirty threshold niter C R Hn Ce Hg M P E. exact (proj2 (rounded_flux fl u H n Hn psf Ce g Hg dirty threshold niter C R M P E)).
Qed.
(* Double precision and up to 999999 cycles: nine digits. *)
Theorem C122_double : forall n psf g dirty threshold niter C R, (0 < n)%nat -> psf (n - 1)%nat (n - 1)%nat = 1 -> 0 <= g <= 1 ->
  machine (nearest 53) n dirty -> (exists x y, in_image n n x y /\ 0 <= dirty x y) -> (niter_of n niter < 999999)%Z ->
  rhogbom_clean (nearest 53) n n dirty (2 * n) (2 * n) psf g threshold niter = Ok (C, R) ->
  forall x y, in_image n n x y -> Rabs (dirty x y - (R x y + spread n C psf x y)) <= / 10 ^ 9 * (Rabs (dirty x y) + spread n C (absolute psf) x y).
Proof.
  intros n psf g dirty threshold niter C R Hn Ce Hg M P K E x y I.
  pose proof (C122_flux _ _ double_rounding n psf g dirty threshold niter C R Hn Ce Hg M P E) as F.
  eapply Rle_trans; [apply F, I|]. apply double_loss.
  - rewrite INR_IZR_INZ. apply IZR_le. lia.
  - unfold spread. apply (CleanProofs.rsum_nonneg n). intros p Hp. apply (CleanProofs.rsum_nonneg n). intros q Hq. apply Rmult_le_pos; [apply F; split; assumption|apply Rabs_pos].
Qed.
(* Nothing is conserved exactly: a component can be too small to change the residual. *)
Theorem C122_exact_refuted : ~ forall n psf g dirty threshold niter C R, (0 < n)%nat -> psf (n - 1)%nat (n - 1)%nat = 1 -> 0 <= g <= 1 ->
  machine (nearest 53) n dirty -> (exists x y, in_image n n x y /\ 0 <= dirty x y) ->
  rhogbom_clean (nearest 53) n n dirty (2 * n) (2 * n) psf g threshold niter = Ok (C, R) ->
  forall x y, in_image n n x y -> dirty x y = R x y + spread n C psf x y.
Proof.
  intros H. destruct lost as (C & R & E & EC & ER).
  specialize (H 1%nat (fun _ _ => 1) tiny (fun _ _ => 1) (Some 0) (Some 0%Z) C R ltac:(lia) eq_refl ltac:(rewrite tiny_val; lra)
    (fun _ _ _ => RoundProofs4.fl_exact 1 RoundProofs4.fmt_1) ltac:(exists 0%nat, 0%nat; split; [split; lia|lra]) E 0%nat 0%nat ltac:(split; lia)).
  unfold spread in H. cbn in H. rewrite EC, ER, tiny_val in H. lra.
Qed.

(* The same run meets the bound. *)
Example lost_within : exists C R, rhogbom_clean (nearest 53) 1 1 (fun _ _ => 1) 2 2 (fun _ _ => 1) tiny (Some 0) (Some 0%Z) = Ok (C, R) /\
  C 0%nat 0%nat = tiny /\ R 0%nat 0%nat = 1 /\ Rabs (1 - (R 0%nat 0%nat + spread 1 C (fun _ _ => 1) 0 0)) <= / 10 ^ 9 * (Rabs 1 + spread 1 C (absolute (fun _ _ => 1)) 0 0).
Proof.
  destruct lost as (C & R & E & EC & ER). exists C, R. split; [exact E|]. split; [exact EC|]. split; [exact ER|].
  exact (C122_double 1 (fun _ _ => 1) tiny (fun _ _ => 1) (Some 0) (Some 0%Z) C R ltac:(lia) eq_refl ltac:(rewrite tiny_val; lra)
    (fun _ _ _ => RoundProofs4.fl_exact 1 RoundProofs4.fmt_1) ltac:(exists 0%nat, 0%nat; split; [split; lia|lra]) eq_refl E 0%nat 0%nat ltac:(split; lia)).
Qed.
Print Assumptions C122_unrounded. Print Assumptions C122_total. Print Assumptions C122_flux. Print Assumptions C122_residual. Print Assumptions C122_double. Print Assumptions C122_exact_refuted.
