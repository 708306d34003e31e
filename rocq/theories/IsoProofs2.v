(* C121: one source, and two sources within a beam. *)
From Coq Require Import Reals Lra Lia Psatz.
From Verif Require Import Prelude PreludeFacts CRing CplxR DftSpec DftProofs HogModel HogSpec HogProofs CleanSpec CleanProofs RdftProofs3 IsoSpec IsoProofs.
Open Scope R_scope.

Lemma spread_zero n D psf x y : (forall x y, in_image n n x y -> D x y = 0) -> spread n D psf x y = 0.
Proof.
  intros H. change (spread n D psf x y) with (rsum n (fun p => rsum n (fun q => D p q * psf (n - 1 + x - p)%nat (n - 1 + y - q)%nat))).
  rewrite (rsum_ext n _ (fun _ => 0)), rsum_0; [reflexivity|]. intros p Hp. rewrite (rsum_ext n _ (fun _ => 0)), rsum_0; [reflexivity|].
  intros q Hq. rewrite H by (split; assumption). ring.
Qed.

Theorem single_source n psf mu p q sky dirty threshold niter C R : (0 < n)%nat -> in_image n n p q -> 0 <= mu < 1 -> sidelobes n psf mu -> sources_at n [(p, q)] sky ->
  (forall x y, in_image n n x y -> dirty x y = spread n sky psf x y) -> 0 <= fraction threshold < 1 -> (0 <= niter_of n niter)%Z ->
  hogbom_clean n n dirty (2 * n) (2 * n) psf 1 threshold niter = Ok (C, R) ->
  forall x y, in_image n n x y -> C x y = sky x y /\ R x y = 0.
Proof.
  intros Hn Ipq [Mu Mu1] Side Sky Dirty [T T1] Ni E.
  assert (Few : 2 * mu * INR (length [(p, q)]) < 1 + mu) by (cbn; lra).
  assert (Gain : gain_fits (length [(p, q)]) mu 1) by (split; cbn; lra).
  destruct (hogbom_spec n dirty psf 1 threshold niter Hn) as (v & k & Cs & Rs & Mv & E' & Kk & C0 & R0 & Run & Stop).
  rewrite E in E'. injection E' as -> ->. fold (fraction threshold) in Run, Stop. set (thr := fraction threshold * Rabs v) in *. cbv zeta in Run, Stop.
  assert (T0 : 0 <= thr) by (apply Rmult_le_pos; [exact T|apply Rabs_pos]).
  destruct (good_start n psf [(p, q)] sky Sky dirty Dirty (Cs 0%nat) C0) as [G0 _]. rewrite <- R0 in G0.
  pose proof (good_run n psf mu Hn Mu Side [(p, q)] 1 Few Gain sky Sky thr k Cs Rs T0 G0 Run) as [Gk _].
  assert (Done : forall j, good n psf sky (Cs j) (Rs j) -> Cs j p q = sky p q -> forall x y, in_image n n x y -> Cs j x y = sky x y /\ Rs j x y = 0).
  { intros j [Hc Hf] Ej. assert (A : forall x y, in_image n n x y -> Cs j x y = sky x y).
    { intros x y I. destruct (Req_EM_T (sky x y) 0) as [Z|N]; [specialize (Hc x y I); lra|]. destruct (Sky x y I) as [_ H]. destruct (H N) as [H'|[]]. injection H' as <- <-. exact Ej. }
    intros x y I. split; [now apply A|]. rewrite (Hf x y I). apply spread_zero. intros x' y' I'. unfold minus. rewrite A by exact I'. ring. }
  destruct (Req_EM_T (sky p q) 0) as [Z|Nz].
  { apply (Done k Gk). pose proof (proj1 Gk p q Ipq). lra. }
  assert (Lv : sky p q <= v).
  { pose proof (max_ext n _ _ _ Dirty Mv) as Mv'. pose proof (amax_spec n n sky Hn Hn) as Mc.
    pose proof (left_bound n psf mu Hn Mu Side [(p, q)] sky _ v Sky Mc Mv') as LB. cbn [length INR] in LB. pose proof (proj2 Mc p q Ipq). lra. }
  assert (Sp : 0 < sky p q) by (destruct (Sky p q Ipq); lra).
  destruct k as [|k].
  { exfalso. destruct (Stop ltac:(lia)) as (w & Mw & B). rewrite R0 in Mw. rewrite (max_unique _ _ _ _ Mw Mv) in B. unfold thr in B. rewrite Rabs_right in B by lra. nra. }
  destruct (Run 0%nat ltac:(lia)) as (w & p' & q' & Mw & Lw & Tw & Mc).
  assert (D1 : Cs 1%nat p q = sky p q).
  { rewrite R0 in Mw. pose proof (max_unique _ _ _ _ Mw Mv) as ->. pose proof Lw as (I' & Ew & _). rewrite R0 in Ew.
    destruct (pick n psf mu Hn Mu Side [(p, q)] 1 Few Gain sky v p' q' Sky (max_ext n _ _ _ Dirty Mv) I') as [w0 Pk]; [rewrite <- Dirty by exact I'; exact Ew|lra|].
    assert (N' : sky p' q' <> 0) by lra. destruct (Sky p' q' I') as [_ H']. destruct (H' N') as [H2|[]]. injection H2 as <- <-.
    destruct Mc as [MC _]. rewrite MC, !Nat.eqb_refl. cbn [andb]. rewrite C0. lra. }
  destruct (good_step n psf mu Hn Mu Side [(p, q)] 1 Few Gain sky Sky thr w p' q' _ _ _ _ T0 G0 Mw Lw Tw Mc) as (G1 & _).
  pose proof (Done 1%nat G1 D1) as Fin. destruct k as [|k]; [exact Fin|exfalso].
  destruct (Run 1%nat ltac:(lia)) as (w1 & p1 & q1 & M1 & (I1 & E1 & _) & T1' & _). rewrite (proj2 (Fin p1 q1 I1)) in E1. rewrite <- E1, Rabs_R0 in T1'. lra.
Qed.

(* ---------- two sources within a beam ---------- *)
Lemma pair_dirty x y : in_image 3 3 x y -> spread 3 pair_sky wide_psf x y = if Nat.eqb y 0 then (if Nat.eqb x 1 then 18 / 10 else 17 / 10) else 0.
Proof.
  intros [Hx Hy]. destruct x as [|[|[|x]]]; try lia; destruct y as [|[|[|y]]]; try lia; cbn; unfold wide_psf, pair_sky; cbn; lra.
Qed.
Lemma pair_max w : is_max 3 3 (spread 3 pair_sky wide_psf) w -> w = 18 / 10.
Proof.
  intros [(x & y & I & <-) B]. specialize (B 1%nat 0%nat ltac:(split; lia)). rewrite !pair_dirty in * by (try split; try lia; apply I). cbn in B.
  destruct (Nat.eqb y 0), (Nat.eqb x 1); lra.
Qed.
Lemma wide_sidelobes : sidelobes 3 wide_psf (9 / 10).
Proof.
  split; [reflexivity|]. intros x y p q [Hx Hy] [Hp Hq] N.
  assert (A : forall z, 0 <= z <= 9 / 10 -> Rabs z <= 9 / 10) by (intros z Hz; rewrite Rabs_right; lra). apply A.
  destruct x as [|[|[|x]]]; try lia; destruct p as [|[|[|p]]]; try lia; destruct y as [|[|[|y]]]; try lia; destruct q as [|[|[|q]]]; try lia; try congruence; unfold wide_psf; cbn; lra.
Qed.
Lemma pair_sources : sources_at 3 [(0, 0); (2, 0)]%nat pair_sky.
Proof.
  intros x y [Hx Hy]. unfold pair_sky. destruct x as [|[|[|x]]]; try lia; destruct y as [|[|[|y]]]; try lia; cbn; split; try lra; auto.
Qed.
Lemma pair_merged : exists C R, hogbom_clean 3 3 (spread 3 pair_sky wide_psf) (2 * 3) (2 * 3) wide_psf (1 / 10) None (Some 0%Z) = Ok (C, R) /\ C 1%nat 0%nat = 18 / 100 /\ C 0%nat 0%nat = 0.
Proof.
  destruct (hogbom_spec 3 (spread 3 pair_sky wide_psf) wide_psf (1 / 10) None (Some 0%Z) ltac:(lia)) as (v & k & Cs & Rs & Mv & E & Kk & C0 & R0 & Run & Stop).
  exists (Cs k), (Rs k). split; [exact E|]. rewrite (pair_max _ Mv) in *. cbv zeta in *. rewrite (Rabs_right (18 / 10)) in * by lra.
  destruct k as [|k].
  { exfalso. destruct (Stop ltac:(cbn; lia)) as (w & Mw & B). rewrite R0 in Mw. rewrite (pair_max _ Mw) in B. rewrite Rabs_right in B by lra. lra. }
  assert (k = 0)%nat as -> by (cbn in Kk; lia). destruct (Run 0%nat ltac:(lia)) as (w & p & q & Mw & (I & Ew & _) & _ & (MC & _)).
  rewrite R0 in *. rewrite (pair_max _ Mw) in *. rewrite pair_dirty in Ew by exact I.
  assert (p = 1 /\ q = 0)%nat as [-> ->] by (destruct (Nat.eqb_spec q 0), (Nat.eqb_spec p 1); [split; assumption|lra|lra|lra]).
  rewrite !MC. cbn [Nat.eqb andb]. rewrite !C0. split; lra.
Qed.
