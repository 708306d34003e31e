(* C125: CLEAN of noisy images. *)
From Coq Require Import Reals Lra Lia Psatz.
From Verif Require Import Prelude PreludeFacts CRing CplxR DftSpec DftProofs HogModel HogSpec HogProofs CleanSpec CleanProofs RdftProofs3 IsoSpec IsoProofs NoiseSpec.
Open Scope R_scope.

Section Noise.
  Context (n : nat) (psf : arr2 R) (mu : R) (Hn : (0 < n)%nat) (Mu : 0 <= mu < 1) (Side : sidelobes n psf mu).
  Context (S : list (nat * nat)) (gamma eps thr : R).
  Notation K := (INR (length S)).
  Notation A := (1 + mu - 2 * mu * K).
  Notation B := (1 + mu - mu * K).
  Context (Few : 2 * mu * K < 1 + mu) (Eps : 0 <= eps) (Out : stands_out (length S) mu gamma eps thr) (T0 : 0 <= thr).

  Lemma MK : 0 <= mu * K. Proof using Mu. apply Rmult_le_pos; [lra|apply pos_INR]. Qed.
  Lemma B0 : 0 < B. Proof using Few Mu. pose proof MK. lra. Qed.
  Lemma eps_thr : eps <= thr.
  Proof using Mu Few Out T0.
    destruct Out as (G0 & M0 & O). unfold margin in *. pose proof MK as Hk. pose proof B0 as Hb.
    assert (0 <= gamma * ((1 - mu) * B)) by (apply Rmult_le_pos; [exact G0|apply Rmult_le_pos; lra]).
    assert ((A - gamma * ((1 - mu) * B)) * thr <= (1 + mu) * thr) by (apply Rmult_le_compat_r; lra).
    apply (Rmult_le_reg_l (1 + mu)); lra.
  Qed.
  (* N is within eps of the response of D *)
  Lemma left_noise D N c v : sources_at n S D -> noisy_image n psf D eps N -> is_max n n D c -> is_max n n N v -> B * c - eps <= v.
  Proof using Mu Side Hn.
    intros HD HN Mc [_ Bv]. destruct (flux_le n S D c HD Mc) as [c0 F]. destruct Mc as [(x & y & I & Ec) _].
    pose proof (Bv x y I) as V. pose proof (HN x y I) as W. apply abs_le_inv in W.
    destruct (spread_bounds n psf mu Hn Side D x y) as [L _]; [intros; apply HD; assumption|exact I|]. rewrite Ec in L.
    assert (mu * flux n D <= mu * (K * c)) by (apply Rmult_le_compat_l; lra). lra.
  Qed.
  Lemma pick_noise D N v p q : sources_at n S D -> noisy_image n psf D eps N -> is_max n n N v -> in_image n n p q -> N p q = v -> thr < Rabs v ->
    thr < v /\ gamma * v <= D p q.
  Proof using Mu Side Hn Few Eps Out T0.
    intros HD HN Mv I Ev Tv. pose proof (amax_spec n n D Hn Hn) as Mc. set (c := amax n n D) in *.
    destruct (flux_le n S D c HD Mc) as [c0 F]. pose proof (left_noise D N c v HD HN Mc Mv) as LB.
    pose proof MK as Hk. pose proof B0 as Hb. pose proof eps_thr as Et.
    assert (Pos : forall x y, in_image n n x y -> 0 <= D x y) by (intros; apply HD; assumption).
    destruct (spread_bounds n psf mu Hn Side D p q Pos I) as [_ U]. pose proof (HN p q I) as W. rewrite Ev in W. apply abs_le_inv in W.
    assert (FM : mu * flux n D <= mu * (K * c)) by (apply Rmult_le_compat_l; lra).
    assert (Bc : 0 <= B * c) by (apply Rmult_le_pos; lra).
    assert (v0 : thr < v). { unfold Rabs in Tv. destruct Rcase_abs in Tv; lra. }
    split; [exact v0|].
    destruct Out as (G0 & M0 & O). unfold margin in *. set (d := D p q) in *.
    (* v <= (1 - mu) d + mu K c + eps and B c <= v + eps *)
    assert (H1 : v <= (1 - mu) * d + mu * K * c + eps) by lra.
    assert (H2 : mu * K * (B * c) <= mu * K * (v + eps)) by (apply Rmult_le_compat_l; lra).
    assert (H3 : B * v <= B * ((1 - mu) * d + mu * K * c + eps)) by (apply Rmult_le_compat_l; lra).
    assert (H4 : A * v - (1 + mu) * eps <= d * ((1 - mu) * B)).
    { replace A with (B - mu * K) by ring. replace ((1 + mu) * eps) with (B * eps + mu * K * eps) by ring. lra. }
    assert (H5 : (A - gamma * ((1 - mu) * B)) * thr <= (A - gamma * ((1 - mu) * B)) * v) by (apply Rmult_le_compat_l; lra).
    apply (Rmult_le_reg_r ((1 - mu) * B)); [apply Rmult_lt_0_compat; lra|]. lra.
  Qed.

  Context (sky : arr2 R) (Sky : sources_at n S sky).
  Definition fair (C R : arr2 R) : Prop := (forall x y, in_image n n x y -> 0 <= C x y <= sky x y) /\ noisy_image n psf (minus sky C) eps R.
  Lemma fair_left C R : fair C R -> sources_at n S (minus sky C).
  Proof using Sky.
    intros [H _] x y I. specialize (H x y I). destruct (Sky x y I) as [S1 S2]. unfold minus. split; [lra|]. intros N. apply S2. intros Z. rewrite Z in *. lra.
  Qed.
  Lemma fair_step v p q C R C' R' : fair C R -> is_max n n R v -> last_with n n R v p q -> thr < Rabs v ->
    minor_cycle n psf gamma v p q C R C' R' -> fair C' R' /\ flux n (minus sky C') <= flux n (minus sky C) - gamma * thr.
  Proof using Mu Side Hn Few Eps Out T0 Sky.
    intros Gd Mv (I & Ev & _) Tv [MC MR]. pose proof Gd as [Hc Hf].
    destruct (pick_noise _ _ v p q (fair_left C R Gd) Hf Mv I Ev Tv) as [v0 Pk].
    assert (EC : forall x y, minus sky C' x y = less (minus sky C) (gamma * v) p q x y).
    { intros x y. unfold minus, less. rewrite MC. destruct (Nat.eqb x p), (Nat.eqb y q); cbn [andb]; ring. }
    assert (gv : 0 <= gamma * v) by (apply Rmult_le_pos; [exact (proj1 Out)|lra]).
    split; [split|].
    - intros x y J. specialize (Hc x y J). rewrite MC. destruct (Nat.eqb_spec x p) as [->|]; [destruct (Nat.eqb_spec y q) as [->|]|]; cbn [andb]; [|exact Hc|exact Hc].
      unfold minus in Pk. lra.
    - intros x y J. rewrite MR by exact J. rewrite (spread_ext n (minus sky C') (less (minus sky C) (gamma * v) p q)) by (intros; apply EC).
      rewrite spread_less by assumption. eapply Rle_trans; [|apply (Hf x y J)]. right. f_equal. ring.
    - assert (E : flux n (minus sky C') = flux n (minus sky C) - gamma * v).
      { rewrite <- (flux_less n (minus sky C) (gamma * v) p q I). apply rsum_ext. intros x _. apply rsum_ext. intros y _. apply EC. }
      rewrite E. assert (gamma * thr <= gamma * v) by (apply Rmult_le_compat_l; [exact (proj1 Out)|lra]). lra.
  Qed.
  Lemma fair_run k Cs Rs : fair (Cs 0%nat) (Rs 0%nat) -> clean_run n psf gamma thr k Cs Rs ->
    fair (Cs k) (Rs k) /\ flux n (minus sky (Cs k)) <= flux n (minus sky (Cs 0%nat)) - INR k * (gamma * thr).
  Proof using Mu Side Hn Few Eps Out T0 Sky.
    intros G0. induction k as [|k IH]; intros Run; [split; [exact G0|cbn; lra]|].
    destruct IH as [Gk Fk]; [intros i Hi; apply Run; lia|]. destruct (Run k ltac:(lia)) as (v & p & q & Mv & Lw & Tv & Mc).
    destruct (fair_step v p q _ _ _ _ Gk Mv Lw Tv Mc) as (G' & F'). split; [exact G'|]. rewrite S_INR. lra.
  Qed.
End Noise.

Section Clean.
  Context (n : nat) (psf : arr2 R) (mu : R) (Hn : (0 < n)%nat) (Mu : 0 <= mu < 1) (Side : sidelobes n psf mu).
  Context (S : list (nat * nat)) (gamma eps v : R) (threshold : option R).
  Notation K := (INR (length S)).
  Notation thr := (fraction threshold * Rabs v).
  Context (Few : 2 * mu * K < 1 + mu) (Eps : 0 <= eps) (T : 0 <= fraction threshold) (Out : stands_out (length S) mu gamma eps thr).
  Context (sky : arr2 R) (Sky : sources_at n S sky) (dirty : arr2 R) (Dirty : noisy_image n psf sky eps dirty) (Mv : is_max n n dirty v).
  Lemma T0 : 0 <= thr. Proof using T. apply Rmult_le_pos; [exact T|apply Rabs_pos]. Qed.
  Lemma fair_start C : (forall x y, C x y = 0) -> fair n psf eps sky C dirty /\ flux n (minus sky C) = flux n sky.
  Proof using Sky Dirty.
    intros C0. split; [split|].
    - intros x y I. rewrite C0. destruct (Sky x y I). lra.
    - intros x y I. rewrite (spread_ext n (minus sky C) sky); [exact (Dirty x y I)|]. intros p q _. unfold minus. rewrite C0. ring.
    - apply rsum_ext. intros x _. apply rsum_ext. intros y _. unfold minus. rewrite C0. ring.
  Qed.
  Theorem noise_clean niter C R : hogbom_clean n n dirty (2 * n) (2 * n) psf gamma threshold niter = Ok (C, R) ->
    (forall x y, in_image n n x y -> 0 <= C x y <= sky x y) /\
    (exists r, is_max n n R r /\ forall x y, in_image n n x y -> (1 + mu - mu * K) * (sky x y - C x y) <= r + eps) /\
    (flux n sky < IZR (niter_of n niter + 1) * (gamma * thr) ->
     forall x y, in_image n n x y -> sky x y - C x y <= (thr + eps) / (1 + mu - mu * K)).
  Proof using Mu Side Hn Few Eps Out T Sky Dirty Mv.
    intros E. destruct (hogbom_spec n dirty psf gamma threshold niter Hn) as (v' & k & Cs & Rs & M' & E' & Kk & C0 & R0 & Run & Stop).
    rewrite (max_unique _ _ _ _ M' Mv) in *. clear v' M'. rewrite E in E'. injection E' as -> ->. fold (fraction threshold) in Run, Stop.
    destruct (fair_start (Cs 0%nat) C0) as [G0 F0]. rewrite <- R0 in G0.
    destruct (fair_run n psf mu Hn Mu Side S gamma eps _ Few Eps Out T0 sky Sky k Cs Rs G0 Run) as [Gk Fk]. rewrite F0 in Fk.
    pose proof (amax_spec n n (Rs k) Hn Hn) as Mr. set (r := amax n n (Rs k)) in *.
    assert (Hr : forall x y, in_image n n x y -> (1 + mu - mu * K) * (sky x y - Cs k x y) <= r + eps).
    { intros x y I. pose proof (amax_spec n n (minus sky (Cs k)) Hn Hn) as Mc.
      pose proof (left_noise n psf mu Hn Mu Side S eps _ _ _ _ (fair_left n psf S eps sky Sky _ _ Gk) (proj2 Gk) Mc Mr) as LB.
      pose proof (B0 mu Mu S Few) as Hb.
      assert ((1 + mu - mu * K) * (sky x y - Cs k x y) <= (1 + mu - mu * K) * amax n n (minus sky (Cs k))); [|lra].
      apply Rmult_le_compat_l; [lra|]. exact (proj2 Mc x y I). }
    split; [exact (proj1 Gk)|]. split; [exists r; split; assumption|]. intros Hk.
    assert (Hr' : Rabs r <= thr).
    { destruct (Nat.lt_ge_cases k (Z.to_nat (niter_of n niter + 1))) as [L|L].
      - destruct (Stop L) as (w & Mw & Bw). rewrite (max_unique _ _ _ _ Mr Mw). exact Bw.
      - exfalso. assert (P : 0 <= flux n (minus sky (Cs k))).
        { apply rsum_nonneg. intros x Hx. apply rsum_nonneg. intros y Hy. destruct (fair_left n psf S eps sky Sky _ _ Gk x y (conj Hx Hy)) as [P _]. exact P. }
        assert (IZR (niter_of n niter + 1) <= INR k) by (rewrite INR_IZR_INZ; apply IZR_le; lia).
        assert (0 <= gamma * thr) by (apply Rmult_le_pos; [exact (proj1 Out)|exact T0]).
        assert (IZR (niter_of n niter + 1) * (gamma * thr) <= INR k * (gamma * thr)) by (apply Rmult_le_compat_r; assumption). lra. }
    intros x y I. specialize (Hr x y I). pose proof (Rle_abs r). pose proof (B0 mu Mu S Few) as Hb.
    apply (Rmult_le_reg_l (1 + mu - mu * K)); [exact Hb|]. replace ((1 + mu - mu * K) * ((thr + eps) / (1 + mu - mu * K))) with (thr + eps) by (field; lra). lra.
  Qed.
End Clean.
