(* C123: sources imaged by an interferometer and cleaned. *)
From Coq Require Import Reals Lra Lia String.
From Verif Require Import Prelude CRing CplxR RimeModel RimeSpec RimeProofs DftModel DftSpec DftProofs HogModel HogSpec HogProofs CleanSpec CleanProofs ImgSpec ImgProofs IsoSpec IsoProofs SynSpec.
Open Scope R_scope.

(* ---------- a full turn of cosines is zero ---------- *)
Lemma cos_telescope t p N : 2 * sin (t / 2) * rsum N (fun a => cos (t * INR a + p)) = sin (t * INR N + p - t / 2) - sin (p - t / 2).
Proof.
  induction N as [|N IH].
  - change (rsum 0 (fun a => cos (t * INR a + p))) with 0. change (INR 0) with 0. rewrite !Rmult_0_r, Rplus_0_l. ring.
  - rewrite rsum_S, Rmult_plus_distr_l, IH, S_INR.
    replace (t * (INR N + 1) + p - t / 2) with (t * INR N + p + t / 2) by field. rewrite sin_plus.
    replace (t * INR N + p - t / 2) with (t * INR N + p + - (t / 2)) by ring. rewrite (sin_plus (t * INR N + p) (- (t / 2))), sin_neg, cos_neg. ring.
Qed.
Lemma sin_frac d N : (0 < N)%nat -> d <> 0%Z -> (Z.abs d < Z.of_nat N)%Z -> sin (PI * IZR d / INR N) <> 0.
Proof.
  intros HN Hd L. assert (P : 0 < INR N) by (now apply lt_0_INR). pose proof PI_RGT_0 as HPI.
  assert (Q : forall z, (0 < z)%Z -> (z < Z.of_nat N)%Z -> 0 < sin (PI * IZR z / INR N)).
  { intros z Z0 Z1. apply IZR_lt in Z0, Z1. rewrite <- INR_IZR_INZ in Z1. apply sin_gt_0.
    - apply Rmult_lt_0_compat; [nra|now apply Rinv_0_lt_compat].
    - apply (Rmult_lt_reg_r (INR N)); [exact P|]. unfold Rdiv. rewrite Rmult_assoc, Rinv_l by lra. nra. }
  destruct (Z_lt_le_dec 0 d) as [Z0|Z0].
  - specialize (Q d Z0 ltac:(lia)). lra.
  - specialize (Q (- d)%Z ltac:(lia) ltac:(lia)). rewrite opp_IZR in Q. replace (PI * - IZR d / INR N) with (- (PI * IZR d / INR N)) in Q by (field; lra). rewrite sin_neg in Q. lra.
Qed.
Lemma sin_turns x d : sin (x + 2 * PI * IZR d) = sin x.
Proof.
  assert (H : forall k x, sin (x + 2 * PI * INR k) = sin x). { intros k y. replace (y + 2 * PI * INR k) with (y + 2 * INR k * PI) by ring. apply sin_period. }
  destruct (Z_le_gt_dec 0 d) as [L|L].
  - rewrite <- (Z2Nat.id d L), <- INR_IZR_INZ. apply H.
  - rewrite <- (H (Z.to_nat (- d)) (x + 2 * PI * IZR d)). f_equal. rewrite INR_IZR_INZ, Z2Nat.id, opp_IZR by lia. ring.
Qed.
Lemma full_turn d N p : (0 < N)%nat -> d <> 0%Z -> (Z.abs d < Z.of_nat N)%Z -> rsum N (fun a => cos (2 * PI * IZR d / INR N * INR a + p)) = 0.
Proof.
  intros HN Hd L. assert (P : 0 < INR N) by (now apply lt_0_INR). pose proof (sin_frac d N HN Hd L) as S.
  pose proof (cos_telescope (2 * PI * IZR d / INR N) p N) as T.
  replace (2 * PI * IZR d / INR N / 2) with (PI * IZR d / INR N) in T by (field; lra).
  replace (2 * PI * IZR d / INR N * INR N + p - PI * IZR d / INR N) with (p - PI * IZR d / INR N + 2 * PI * IZR d) in T by (field; lra).
  rewrite sin_turns in T. assert (H : 2 * sin (PI * IZR d / INR N) <> 0) by lra.
  apply (Rmult_eq_reg_l (2 * sin (PI * IZR d / INR N))); [|exact H]. rewrite T. ring.
Qed.
Lemma full_plane d e N : (0 < N)%nat -> (Z.abs d < Z.of_nat N)%Z -> (Z.abs e < Z.of_nat N)%Z ->
  rsum N (fun a => rsum N (fun b => cos (2 * PI * IZR d / INR N * INR a + 2 * PI * IZR e / INR N * INR b))) = if (Z.eqb d 0 && Z.eqb e 0)%bool then INR N * INR N else 0.
Proof.
  intros HN Ld Le. assert (P : 0 < INR N) by (now apply lt_0_INR).
  assert (One : rsum N (fun _ => 1) = INR N). { clear. induction N as [|N IH]; [reflexivity|]. rewrite rsum_S, IH, S_INR. ring. }
  destruct (Z.eqb_spec e 0) as [->|He].
  - destruct (Z.eqb_spec d 0) as [->|Hd]; cbn [andb].
    + transitivity (rsum N (fun _ => INR N * 1)); [|rewrite rsum_scale, One; reflexivity]. apply rsum_ext. intros a _. rewrite Rmult_1_r. etransitivity; [|exact One]. apply rsum_ext. intros b _.
      etransitivity; [|exact cos_0]. f_equal. field. lra.
    + rewrite rsum_swap. transitivity (rsum N (fun _ => 0)); [|apply rsum_0]. apply rsum_ext. intros b _. now apply full_turn.
  - rewrite Bool.andb_false_r. transitivity (rsum N (fun _ => 0)); [|apply rsum_0]. apply rsum_ext. intros a _.
    rewrite <- (full_turn e N (2 * PI * IZR d / INR N * INR a) HN He Le). apply rsum_ext. intros b _. f_equal. ring.
Qed.

Section Imaged.
  Context (nrows nchan ncorr n : nat) (uvw : arr2 R) (freq : arr R) (flags : arr3 bool) (conv : string) (e : R) (l0 m0 dl dm : R) (sky : arr3 R) (V : arr3 RC) (D P : arr3 R).
  Context (He : im_sign conv e) (Hw : forall r, (r < nrows)%nat -> uvw r 2%nat = 0).
  Context (EV : im_to_vis nrows (n * n) nchan ncorr (fun s f c => ofR (sky s f c)) uvw (grid_lm n l0 m0 dl dm) freq conv = Ok V).
  Context (ED : vis_to_im nrows (n * n) nchan ncorr true V uvw (grid_lm n l0 m0 dl dm) freq flags conv = Ok D).
  Context (EP : vis_to_im nrows (2 * n * (2 * n)) nchan ncorr true (fun _ _ _ => c1) uvw (psf_lm n dl dm) freq flags conv = Ok P).
  Context (f c : nat) (Hf : (f < nchan)%nat) (Hc : (c < ncorr)%nat) (Hn : (0 < n)%nat).
  Notation N := (kept_rows nrows ncorr flags f).
  Lemma imaged_dirty x y : in_image n n x y -> scaled N (plane n D f c) x y = spread n (plane n sky f c) (scaled N (plane (2 * n) P f c)) x y.
  Proof using He Hw EV ED EP Hf Hc.
    intros I. rewrite scaled_spread. unfold scaled. f_equal. exact (dirty_spread nrows nchan ncorr uvw freq flags conv e He n l0 m0 dl dm Hw P EP sky V D EV ED f c x y Hf Hc I).
  Qed.
  Context (Full : full_coverage n (freq f) dl dm uvw) (Rows : nrows = (n * n)%nat) (NF : no_flags nrows ncorr flags f).
  Lemma full_kept : N = INR n * INR n.
  Proof using Rows NF.
    unfold kept_rows. transitivity (rsum nrows (fun _ => 1)).
    - apply rsum_ext. intros r Hr. destruct (existsb _ _) eqn:E; [|reflexivity]. apply existsb_exists in E. destruct E as (k & Hk & Ek). apply in_seq in Hk. rewrite NF in Ek by (clear - Hr Hk; lia). discriminate.
    - rewrite Rows, <- mult_INR. generalize (n * n)%nat as m. clear. induction m as [|m IH]; [reflexivity|]. rewrite rsum_S, IH, S_INR. ring.
  Qed.
  Lemma full_psf i j : (i < 2 * n - 1)%nat -> (j < 2 * n - 1)%nat -> scaled N (plane (2 * n) P f c) i j = point_psf (n - 1) (n - 1) i j.
  Proof using He Hw EP Hf Hc Hn Full Rows NF.
    intros Hi Hj. unfold scaled. rewrite full_kept. assert (Pn : 0 < INR n) by (now apply lt_0_INR).
    rewrite (psf_sampled nrows nchan ncorr uvw freq flags conv e He n dl dm Hw P EP f c i j Hf Hc) by lia.
    unfold sampled_psf.
    assert (HC : 0 < light) by (unfold light; lra).
    assert (E : forall a b, (a < n)%nat -> (b < n)%nat ->
      (if fl ncorr flags (a * n + b) f then 0 else 1) * cos (2 * PI * freq f / light * (uvw (a * n + b)%nat 0%nat * dl) * (INR i - INR (n - 1)) + 2 * PI * freq f / light * (uvw (a * n + b)%nat 1%nat * dm) * (INR j - INR (n - 1)))
      = cos (2 * PI * IZR (Z.of_nat i - Z.of_nat (n - 1)) / INR n * INR a + 2 * PI * IZR (Z.of_nat j - Z.of_nat (n - 1)) / INR n * INR b)).
    { intros a b Ha Hb. destruct (fl ncorr flags (a * n + b) f) eqn:Ef.
      - apply fl_spec in Ef. destruct Ef as (k & Hk & Ek). rewrite NF in Ek by (try assumption; nia). discriminate.
      - rewrite Rmult_1_l. f_equal. destruct (Full a b Ha Hb) as (U & W & _). rewrite !minus_IZR, <- !INR_IZR_INZ.
        replace (2 * PI * freq f / light * (uvw (a * n + b)%nat 0%nat * dl)) with (2 * PI * (freq f * uvw (a * n + b)%nat 0%nat * dl * INR n) / (light * INR n)) by (field; lra).
        replace (2 * PI * freq f / light * (uvw (a * n + b)%nat 1%nat * dm)) with (2 * PI * (freq f * uvw (a * n + b)%nat 1%nat * dm * INR n) / (light * INR n)) by (field; lra).
        rewrite U, W. field. lra. }
    rewrite Rows, rsum_flat.
    transitivity ((if (Z.eqb (Z.of_nat i - Z.of_nat (n - 1)) 0 && Z.eqb (Z.of_nat j - Z.of_nat (n - 1)) 0)%bool then INR n * INR n else 0) / (INR n * INR n)).
    - f_equal. rewrite <- full_plane by lia. apply rsum_ext. intros a Ha. apply rsum_ext. intros b Hb. apply E; assumption.
    - unfold point_psf. destruct (Z.eqb_spec (Z.of_nat i - Z.of_nat (n - 1)) 0), (Nat.eqb_spec i (n - 1)); try lia; destruct (Z.eqb_spec (Z.of_nat j - Z.of_nat (n - 1)) 0), (Nat.eqb_spec j (n - 1)); try lia; cbn [andb]; field; lra.
  Qed.
  Lemma full_dirty x y : in_image n n x y -> scaled N (plane n D f c) x y = plane n sky f c x y.
  Proof using He Hw EV ED EP Hf Hc Hn Full Rows NF.
    intros I. rewrite imaged_dirty by exact I. rewrite <- (run_point n (plane n sky f c) x y I). destruct I as [Hx Hy].
    apply (rsum_ext n). intros p Hp. apply (rsum_ext n). intros q Hq. f_equal. apply full_psf; lia.
  Qed.
  Lemma full_sidelobes : sidelobes n (scaled N (plane (2 * n) P f c)) 0.
  Proof using He Hw EP Hf Hc Hn Full Rows NF.
    split.
    - rewrite full_psf by lia. unfold point_psf. now rewrite !Nat.eqb_refl.
    - intros x y p q [Hx Hy] [Hp Hq] Ne. rewrite full_psf by lia. unfold point_psf.
      destruct (Nat.eqb_spec (n - 1 + x - p) (n - 1)), (Nat.eqb_spec (n - 1 + y - q) (n - 1)); cbn [andb]; try (rewrite Rabs_R0; lra). exfalso. apply Ne. f_equal; lia.
  Qed.
End Imaged.
