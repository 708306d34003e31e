(* C121: Hogbom CLEAN finds isolated sources. *)
From Coq Require Import Reals Lra Lia.
From Verif Require Import Prelude CRing CplxR DftSpec HogModel HogSpec CleanSpec IsoSpec IsoProofs IsoProofs2.
Open Scope R_scope.

(* K sources, sidelobes at most mu with 2 mu K < 1 + mu.  No component is put where there is no source, none exceeds the flux
   of its source, and the largest residual bounds what is missing. *)
Theorem C121_components : forall n psf mu S gamma sky dirty threshold niter C R, (0 < n)%nat -> 0 <= mu -> sidelobes n psf mu -> sources_at n S sky ->
  2 * mu * INR (length S) < 1 + mu -> gain_fits (length S) mu gamma ->
  (forall x y, in_image n n x y -> dirty x y = spread n sky psf x y) -> 0 <= fraction threshold ->
  hogbom_clean n n dirty (2 * n) (2 * n) psf gamma threshold niter = Ok (C, R) ->
  (forall x y, in_image n n x y -> 0 <= C x y <= sky x y) /\
  exists r, is_max n n R r /\ forall x y, in_image n n x y -> (1 + mu - mu * INR (length S)) * (sky x y - C x y) <= r.
Proof.
  intros n psf mu S gamma sky dirty threshold niter C R Hn Mu Side Sky Few Gain Dirty T.
  exact (iso_components n psf mu Hn Mu Side S gamma Few Gain sky Sky dirty Dirty threshold niter C R T).
Qed.
(* With enough cycles every source is found to within the threshold. *)
Theorem C121_recovers : forall n psf mu S gamma sky dirty threshold niter v C R, (0 < n)%nat -> 0 <= mu -> sidelobes n psf mu -> sources_at n S sky ->
  2 * mu * INR (length S) < 1 + mu -> gain_fits (length S) mu gamma ->
  (forall x y, in_image n n x y -> dirty x y = spread n sky psf x y) -> 0 <= fraction threshold -> is_max n n dirty v ->
  let thr := fraction threshold * Rabs v in
  flux n sky < IZR (niter_of n niter + 1) * (gamma * thr) ->
  hogbom_clean n n dirty (2 * n) (2 * n) psf gamma threshold niter = Ok (C, R) ->
  forall x y, in_image n n x y -> 0 <= sky x y - C x y <= thr / (1 + mu - mu * INR (length S)).
Proof.
  intros n psf mu S gamma sky dirty threshold niter v C R Hn Mu Side Sky Few Gain Dirty T.
  exact (iso_recovers n psf mu Hn Mu Side S gamma Few Gain sky Sky dirty Dirty threshold niter v C R T).
Qed.
(* One source and gain 1: the components are the sky and nothing is left. *)
Theorem C121_single : forall n psf mu p q sky dirty threshold niter C R, (0 < n)%nat -> in_image n n p q -> 0 <= mu < 1 -> sidelobes n psf mu ->
  sources_at n [(p, q)] sky -> (forall x y, in_image n n x y -> dirty x y = spread n sky psf x y) -> 0 <= fraction threshold < 1 -> (0 <= niter_of n niter)%Z ->
  hogbom_clean n n dirty (2 * n) (2 * n) psf 1 threshold niter = Ok (C, R) ->
  forall x y, in_image n n x y -> C x y = sky x y /\ R x y = 0.
Proof. exact single_source. Qed.
(* Without the bound on the sidelobes components appear between the sources: two sources within a beam. *)
Theorem C121_wide_beam_refuted : ~ forall n psf mu S gamma sky dirty threshold niter C R, (0 < n)%nat -> 0 <= mu < 1 -> sidelobes n psf mu -> sources_at n S sky ->
  0 <= gamma <= 1 -> (forall x y, in_image n n x y -> dirty x y = spread n sky psf x y) -> 0 <= fraction threshold ->
  hogbom_clean n n dirty (2 * n) (2 * n) psf gamma threshold niter = Ok (C, R) ->
  forall x y, in_image n n x y -> 0 <= C x y <= sky x y.
Proof.
  intros H. destruct pair_merged as (C & R & E & E1 & _).
  specialize (H 3%nat wide_psf (9 / 10) _ (1 / 10) pair_sky (spread 3 pair_sky wide_psf) None (Some 0%Z) C R ltac:(lia) ltac:(lra) wide_sidelobes pair_sources ltac:(lra)
    (fun _ _ _ => eq_refl) ltac:(cbn; lra) E 1%nat 0%nat ltac:(split; lia)). rewrite E1 in H. unfold pair_sky in H. cbn in H. lra.
Qed.

(* Two sources of 3 and 5 on sidelobes of a tenth, with the default threshold and gain 1/10. *)
Definition two_sky : arr2 R := fun x y => if Nat.eqb x y then (if Nat.eqb x 0 then 3 else 5) else 0.
Example two_found : forall C R, hogbom_clean 2 2 (spread 2 two_sky (pedestal_psf 2 (1 / 10))) (2 * 2) (2 * 2) (pedestal_psf 2 (1 / 10)) (1 / 10) None (Some 100%Z) = Ok (C, R) ->
  0 <= 3 - C 0%nat 0%nat <= 106 / 90 /\ 0 <= 5 - C 1%nat 1%nat <= 106 / 90 /\ C 0%nat 1%nat = 0.
Proof.
  intros C R E.
  assert (Val : forall x y, in_image 2 2 x y -> spread 2 two_sky (pedestal_psf 2 (1 / 10)) x y = if Nat.eqb x y then (if Nat.eqb x 0 then 35 / 10 else 53 / 10) else 8 / 10).
  { intros x y [Hx Hy]. destruct x as [|[|x]]; try lia; destruct y as [|[|y]]; try lia; unfold spread, two_sky, pedestal_psf; cbn; lra. }
  assert (Mx : is_max 2 2 (spread 2 two_sky (pedestal_psf 2 (1 / 10))) (53 / 10)).
  { split; [exists 1%nat, 1%nat; split; [split; lia|rewrite Val by (split; lia); reflexivity]|].
    intros x y I. rewrite Val by exact I. destruct (Nat.eqb x y), (Nat.eqb x 0); lra. }
  assert (Side : sidelobes 2 (pedestal_psf 2 (1 / 10)) (1 / 10)).
  { split; [reflexivity|]. intros x y p q [Hx Hy] [Hp Hq] N. unfold pedestal_psf. rewrite Rabs_right.
    - destruct x as [|[|x]]; try lia; destruct p as [|[|p]]; try lia; destruct y as [|[|y]]; try lia; destruct q as [|[|q]]; try lia; try congruence; cbn; lra.
    - destruct (_ && _)%bool; lra. }
  assert (Sky : sources_at 2 [(0, 0); (1, 1)]%nat two_sky).
  { intros x y [Hx Hy]. unfold two_sky. destruct x as [|[|x]]; try lia; destruct y as [|[|y]]; try lia; cbn; split; try lra; auto. }
  assert (Fl : flux 2 two_sky = 8) by (unfold flux, rsum, two_sky; cbn; lra).
  assert (H : forall x y, in_image 2 2 x y -> 0 <= two_sky x y - C x y <= 2 / 10 * Rabs (53 / 10) / (1 + 1 / 10 - 1 / 10 * INR 2)).
  { apply (C121_recovers 2 _ (1 / 10) _ (1 / 10) two_sky (spread 2 two_sky (pedestal_psf 2 (1 / 10))) None (Some 100%Z) (53 / 10) C R ltac:(lia) ltac:(lra) Side Sky); auto.
    - cbn. lra.
    - split; cbn; lra.
    - cbn. lra.
    - rewrite Fl. cbn [fraction niter_of]. rewrite Rabs_right by lra. change (100 + 1)%Z with 101%Z. lra. }
  rewrite Rabs_right in H by lra. pose proof (H 0%nat 0%nat ltac:(split; lia)) as A. pose proof (H 1%nat 1%nat ltac:(split; lia)) as B.
  destruct (C121_components 2 _ (1 / 10) _ (1 / 10) two_sky (spread 2 two_sky (pedestal_psf 2 (1 / 10))) None (Some 100%Z) C R ltac:(lia) ltac:(lra) Side Sky) as [D _]; auto; [cbn; lra|split; cbn; lra|cbn; lra|].
  specialize (D 0%nat 1%nat ltac:(split; lia)). unfold two_sky in *. cbn in A, B, D. lra.
Qed.

Print Assumptions C121_components.
Print Assumptions C121_recovers.
Print Assumptions C121_single.
Print Assumptions C121_wide_beam_refuted.
