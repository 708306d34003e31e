(* C116: Hogbom CLEAN converges *)
From Coq Require Import Reals Lra Lia.
From Verif Require Import Prelude CRing CplxR DftSpec DftProofs HogModel HogSpec HogProofs CleanSpec CleanProofs.
Open Scope R_scope.

(* C116.  If the dirty image is the response of a sky, through a symmetric point spread function, then every run leaves components
   that are no further from the sky than none at all, and the residual is the response of what they have not explained. *)
Theorem C116_improves : forall n dirty psf sky gamma threshold niter C R, (0 < n)%nat -> symmetric n psf ->
  (forall x y, in_image n n x y -> dirty x y = spread n sky psf x y) ->
  0 <= gamma -> gamma * psf (n - 1)%nat (n - 1)%nat <= 2 -> 0 <= fraction threshold ->
  hogbom_clean n n dirty (2 * n) (2 * n) psf gamma threshold niter = Ok (C, R) ->
  (forall x y, in_image n n x y -> R x y = spread n (minus sky C) psf x y) /\ distance2 n psf sky C <= inner n sky dirty.
Proof. exact clean_improves. Qed.
(* one cycle brings the components closer by gamma (2 - gamma) times the square of the peak, for a point spread function with centre 1 *)
Theorem C116_cycle : forall n psf sky gamma v p q C R C' R', symmetric n psf -> in_image n n p q -> R p q = v ->
  (forall x y, in_image n n x y -> R x y = spread n (minus sky C) psf x y) -> minor_cycle n psf gamma v p q C R C' R' ->
  distance2 n psf sky C' = distance2 n psf sky C - gamma * (2 - gamma * psf (n - 1)%nat (n - 1)%nat) * (v * v).
Proof. intros n psf sky gamma v p q C R C' R' S I V F M. exact (proj2 (cycle_energy n psf sky S gamma v p q C R C' R' M I V F)). Qed.
(* if moreover no response points away from its image, the run reaches its threshold when it may make enough cycles *)
Theorem C116_converges : forall n dirty psf sky gamma threshold niter v C R, (0 < n)%nat -> symmetric n psf -> positive n psf ->
  (forall x y, in_image n n x y -> dirty x y = spread n sky psf x y) ->
  0 <= gamma -> gamma * psf (n - 1)%nat (n - 1)%nat <= 2 -> 0 <= fraction threshold -> is_max n n dirty v ->
  let thr := fraction threshold * Rabs v in
  inner n sky dirty < IZR (niter_of n niter + 1) * (gamma * (2 - gamma * psf (n - 1)%nat (n - 1)%nat) * (thr * thr)) ->
  hogbom_clean n n dirty (2 * n) (2 * n) psf gamma threshold niter = Ok (C, R) ->
  exists r, is_max n n R r /\ Rabs r <= thr.
Proof. exact clean_converges. Qed.
(* the point spread function of an interferometer with weights that are not negative is of this kind *)
Theorem C116_sampled : forall n m w a b,
  symmetric n (sampled_psf n m w a b) /\ ((forall k, (k < m)%nat -> 0 <= w k) -> positive n (sampled_psf n m w a b)).
Proof. intros. split; [apply sampled_symmetric|apply sampled_positive]. Qed.
(* with a gain above 2, which is not refused, no number of cycles is enough *)
Theorem C116_gain_refuted : ~ forall n dirty psf sky gamma threshold v, (0 < n)%nat -> symmetric n psf -> positive n psf ->
  (forall x y, in_image n n x y -> dirty x y = spread n sky psf x y) -> 0 < gamma -> 0 < fraction threshold -> is_max n n dirty v ->
  exists niter C R r, hogbom_clean n n dirty (2 * n) (2 * n) psf gamma threshold (Some niter) = Ok (C, R) /\
    is_max n n R r /\ Rabs r <= fraction threshold * Rabs v.
Proof.
  intros H. destruct (H 1%nat (fun _ _ => 1) (point_psf 0 0) (fun _ _ => 1) 3 None 1 ltac:(lia) point_symmetric point_positive) as (niter & C & R & r & E & Mx & B).
  - intros x y I. now rewrite spread_1.
  - lra.
  - cbn. lra.
  - exact one_max.
  - destruct (one_pixel 3 None (Some niter) C R E) as (k & _ & ER & _).
    destruct Mx as [(x & y & [Hx Hy] & <-) _]. assert (x = 0 /\ y = 0)%nat as [-> ->] by lia. rewrite ER, Rabs_R1 in B.
    replace (1 - 3) with (-2) in B by ring. rewrite <- RPow_abs in B. rewrite Rabs_left in B by lra. cbn [fraction] in B.
    pose proof (pow_R1_Rle (- - 2) k ltac:(lra)). lra.
Qed.
(* the default of 3 n iterations need not be enough *)
Theorem C116_default_iterations_refuted : ~ forall n dirty psf sky gamma threshold v C R, (0 < n)%nat -> symmetric n psf -> positive n psf ->
  (forall x y, in_image n n x y -> dirty x y = spread n sky psf x y) -> 0 < gamma -> gamma * psf (n - 1)%nat (n - 1)%nat < 1 ->
  0 < fraction threshold -> is_max n n dirty v ->
  hogbom_clean n n dirty (2 * n) (2 * n) psf gamma threshold None = Ok (C, R) -> exists r, is_max n n R r /\ Rabs r <= fraction threshold * Rabs v.
Proof.
  intros H. destruct (hogbom_spec 1 (fun _ _ => 1) (point_psf 0 0) (1 / 10) None None ltac:(lia)) as (v & k & Cs & Rs & M & E & _).
  destruct (H 1%nat (fun _ _ => 1) (point_psf 0 0) (fun _ _ => 1) (1 / 10) None 1 (Cs k) (Rs k) ltac:(lia) point_symmetric point_positive) as (r & Mx & B).
  - intros x y I. now rewrite spread_1.
  - lra.
  - unfold point_psf. cbn. lra.
  - cbn. lra.
  - exact one_max.
  - exact E.
  - destruct (one_pixel (1 / 10) None None _ _ E) as (j & J & ER & _).
    destruct Mx as [(x & y & [Hx Hy] & <-) _]. assert (x = 0 /\ y = 0)%nat as [-> ->] by lia. rewrite ER, Rabs_R1 in B.
    change (Z.to_nat (niter_of 1 None + 1)) with 4%nat in J. cbn [fraction] in B.
    rewrite Rabs_pos_eq in B by (apply pow_le; lra). do 5 (destruct j as [|j]; [cbn [pow] in B; lra|]). lia.
Qed.

Print Assumptions C116_improves.
Print Assumptions C116_cycle.
Print Assumptions C116_converges.
Print Assumptions C116_sampled.
Print Assumptions C116_gain_refuted.
Print Assumptions C116_default_iterations_refuted.

(* a case: two pixels a side, a point spread function that is 1 plus a cosine, a sky with two sources, gain 1/10, threshold 1/5 *)
Definition case_psf : arr2 R := sampled_psf 2 2 (fun _ => / 2) (fun k => INR k) (fun k => 2 * INR k).
Definition case_sky : arr2 R := fun x y => INR x + 2 * INR y.
Example case_hypotheses : symmetric 2 case_psf /\ positive 2 case_psf /\ case_psf 1%nat 1%nat = 1 /\ 0 <= / 10 /\ / 10 * case_psf 1%nat 1%nat <= 2 /\
  exists v, is_max 2 2 (spread 2 case_sky case_psf) v.
Proof.
  assert (E : case_psf 1%nat 1%nat = 1).
  { unfold case_psf, sampled_psf. rewrite (rsum_ext 2 _ (fun _ => / 2)).
    - change (0 + / 2 + / 2 = 1). lra.
    - intros k _. replace (INR k * (INR 1 - INR (2 - 1)) + 2 * INR k * (INR 1 - INR (2 - 1))) with 0 by (change (2 - 1)%nat with 1%nat; ring). rewrite cos_0. ring. }
  split; [apply sampled_symmetric|]. split; [apply sampled_positive; intros; lra|]. split; [exact E|]. split; [lra|]. split; [rewrite E; lra|].
  destruct (hogbom_spec 2 (spread 2 case_sky case_psf) case_psf 0 None None ltac:(lia)) as (v & _ & _ & _ & M & _). exists v. exact M.
Qed.
(* one pixel: 139 iterations suffice at gain 1/10 and the default threshold, by the bound *)
Example case_enough : inner 1 (fun _ _ => 1) (fun _ _ => 1) <
  IZR (niter_of 1 (Some 139%Z) + 1) * (/ 10 * (2 - / 10 * point_psf 0 0 (1 - 1)%nat (1 - 1)%nat) * ((fraction None * Rabs 1) * (fraction None * Rabs 1))).
Proof. rewrite inner_1, Rabs_R1. unfold point_psf. change (niter_of 1 (Some 139%Z) + 1)%Z with 140%Z. cbn [fraction Nat.sub Nat.eqb andb]. lra. Qed.
