(* C121: CLEAN finds isolated sources. *)
From Coq Require Import Reals Lra Lia Psatz.
From Verif Require Import Prelude PreludeFacts CRing CplxR DftSpec DftProofs HogModel HogSpec HogProofs CleanSpec CleanProofs RdftProofs3 IsoSpec.
Open Scope R_scope.

Lemma abs_le_inv a b : Rabs a <= b -> - b <= a <= b.
Proof. unfold Rabs. destruct Rcase_abs; lra. Qed.
Definition ones : arr2 R := fun _ _ => 1.
Lemma flux_inner n a : flux n a = inner n a ones.
Proof. apply rsum_ext. intros x _. apply rsum_ext. intros y _. unfold ones. ring. Qed.
Lemma inner_le n D F G : (forall x y, in_image n n x y -> D x y * F x y <= D x y * G x y) -> inner n D F <= inner n D G.
Proof. intros H. apply rsum_le. intros x Hx. apply rsum_le. intros y Hy. apply H. split; assumption. Qed.
Definition at_pixel (p q : nat) : arr2 R := fun x y => if Nat.eqb x p then if Nat.eqb y q then 1 else 0 else 0.
Lemma pixel_pos p q x y : 0 <= at_pixel p q x y.
Proof. unfold at_pixel. destruct (Nat.eqb x p), (Nat.eqb y q); lra. Qed.
Lemma inner_pixel n D p q : in_image n n p q -> inner n D (at_pixel p q) = D p q.
Proof.
  intros I. rewrite <- (Rmult_1_l (D p q)), <- (less_pick n 1 p q D I). apply rsum_ext. intros x _. apply rsum_ext. intros y _. unfold at_pixel. ring.
Qed.
Lemma inner_add n D F G : inner n D (fun x y => F x y + G x y) = inner n D F + inner n D G.
Proof. unfold inner. rewrite <- rsum_add. apply rsum_ext. intros x _. rewrite <- rsum_add. apply rsum_ext. intros y _. ring. Qed.

(* the flux of K sources is at most K times the brightest *)
Lemma few_sources n M (S : list (nat * nat)) D : 0 <= M -> (forall x y, in_image n n x y -> D x y <= M /\ (D x y <> 0 -> In (x, y) S)) -> flux n D <= INR (length S) * M.
Proof.
  intros HM H. set (ind := fun x y => fold_right (fun s acc => at_pixel (fst s) (snd s) x y * M + acc) 0 S).
  assert (N : forall T x y, 0 <= fold_right (fun s acc => at_pixel (fst s) (snd s) x y * M + acc) 0 T).
  { induction T as [|s T IH]; intros x y; cbn [fold_right]; [lra|]. specialize (IH x y). pose proof (Rmult_le_pos _ _ (pixel_pos (fst s) (snd s) x y) HM). lra. }
  assert (A : flux n D <= flux n ind).
  { apply rsum_le. intros x Hx. apply rsum_le. intros y Hy. destruct (H x y (conj Hx Hy)) as [H1 H2].
    destruct (Req_EM_T (D x y) 0) as [->|Ne]; [apply N|]. specialize (H2 Ne). apply Rle_trans with M; [exact H1|]. unfold ind. clear -H2 HM N.
    induction S as [|s S IH]; cbn [fold_right]; [contradiction|]. destruct H2 as [->|H2].
    - cbn [fst snd]. pose proof (N S x y). unfold at_pixel at 1. rewrite !Nat.eqb_refl. lra.
    - specialize (IH H2). pose proof (Rmult_le_pos _ _ (pixel_pos (fst s) (snd s) x y) HM). lra. }
  apply Rle_trans with (1 := A). unfold ind. clear -HM N. induction S as [|s S IH].
  - cbn [fold_right length INR]. unfold flux. rewrite (rsum_ext n _ (fun _ => 0)), rsum_0; [lra|]. intros. apply rsum_0.
  - cbn [fold_right]. change (length (s :: S)) with (Datatypes.S (length S)). rewrite S_INR.
    assert (E : flux n (fun x y => at_pixel (fst s) (snd s) x y * M + fold_right (fun s acc => at_pixel (fst s) (snd s) x y * M + acc) 0 S) =
      flux n (fun x y => at_pixel (fst s) (snd s) x y * M) + flux n (fun x y => fold_right (fun s acc => at_pixel (fst s) (snd s) x y * M + acc) 0 S)).
    { unfold flux. rewrite <- rsum_add. apply rsum_ext. intros x _. now rewrite <- rsum_add. }
    rewrite E. assert (flux n (fun x y => at_pixel (fst s) (snd s) x y * M) <= M); [|lra].
    destruct (Nat.lt_ge_cases (fst s) n) as [Hp|Hp]; [destruct (Nat.lt_ge_cases (snd s) n) as [Hq|Hq]|].
    + unfold flux, at_pixel. rewrite (less_pick n 1 (fst s) (snd s) (fun _ _ => M) (conj Hp Hq)). lra.
    + unfold flux. rewrite (rsum_ext n _ (fun _ => 0)), rsum_0; [exact HM|]. intros x Hx. rewrite (rsum_ext n _ (fun _ => 0)), rsum_0; [reflexivity|].
      intros y Hy. unfold at_pixel. rewrite (proj2 (Nat.eqb_neq y (snd s))) by lia. destruct (Nat.eqb x (fst s)); ring.
    + unfold flux. rewrite (rsum_ext n _ (fun _ => 0)), rsum_0; [exact HM|]. intros x Hx. rewrite (rsum_ext n _ (fun _ => 0)), rsum_0; [reflexivity|].
      intros y Hy. unfold at_pixel. rewrite (proj2 (Nat.eqb_neq x (fst s))) by lia. ring.
Qed.

Section Iso.
  Context (n : nat) (psf : arr2 R) (mu : R) (Hn : (0 < n)%nat) (Mu : 0 <= mu) (Side : sidelobes n psf mu).

  Lemma centre x y : psf (n - 1 + x - x)%nat (n - 1 + y - y)%nat = 1.
  Proof. replace (n - 1 + x - x)%nat with (n - 1)%nat by lia. replace (n - 1 + y - y)%nat with (n - 1)%nat by lia. exact (proj1 Side). Qed.
  Lemma spread_bounds D x y : (forall x y, in_image n n x y -> 0 <= D x y) -> in_image n n x y ->
    (1 + mu) * D x y - mu * flux n D <= spread n D psf x y <= (1 - mu) * D x y + mu * flux n D.
  Proof.
    intros P I. rewrite flux_inner. rewrite <- (inner_pixel n D x y I).
    change (spread n D psf x y) with (inner n D (fun p q => psf (n - 1 + x - p)%nat (n - 1 + y - q)%nat)). split.
    - replace ((1 + mu) * inner n D (at_pixel x y) - mu * inner n D ones) with (inner n D (fun p q => (1 + mu) * at_pixel x y p q - mu * ones p q))
        by (rewrite (inner_sub n D (fun p q => (1 + mu) * at_pixel x y p q) (fun p q => mu * ones p q)), !inner_scale; reflexivity).
      apply inner_le. intros p q J. apply Rmult_le_compat_l; [apply P; exact J|]. unfold at_pixel, ones.
      destruct (Nat.eqb_spec p x) as [->|N]; [destruct (Nat.eqb_spec q y) as [->|N]|].
      + rewrite centre. lra.
      + destruct Side as [_ Sd]. specialize (Sd x y x q I J ltac:(congruence)). apply abs_le_inv in Sd. lra.
      + destruct Side as [_ Sd]. specialize (Sd x y p q I J ltac:(congruence)). apply abs_le_inv in Sd. lra.
    - replace ((1 - mu) * inner n D (at_pixel x y) + mu * inner n D ones) with (inner n D (fun p q => (1 - mu) * at_pixel x y p q + mu * ones p q))
        by (rewrite (inner_add n D (fun p q => (1 - mu) * at_pixel x y p q) (fun p q => mu * ones p q)), !inner_scale; reflexivity).
      apply inner_le. intros p q J. apply Rmult_le_compat_l; [apply P; exact J|]. unfold at_pixel, ones.
      destruct (Nat.eqb_spec p x) as [->|N]; [destruct (Nat.eqb_spec q y) as [->|N]|].
      + rewrite centre. lra.
      + destruct Side as [_ Sd]. specialize (Sd x y x q I J ltac:(congruence)). apply abs_le_inv in Sd. lra.
      + destruct Side as [_ Sd]. specialize (Sd x y p q I J ltac:(congruence)). apply abs_le_inv in Sd. lra.
  Qed.

  Context (S : list (nat * nat)) (gamma : R).
  Notation K := (INR (length S)).
  Context (Few : 2 * mu * K < 1 + mu) (Gain : gain_fits (length S) mu gamma).

  Lemma flux_le D c : sources_at n S D -> is_max n n D c -> 0 <= c /\ flux n D <= K * c.
  Proof.
    intros HD [(x & y & I & <-) B]. split; [apply HD; exact I|]. apply few_sources; [apply HD; exact I|].
    intros x' y' I'. split; [apply B; exact I'|]. apply HD; exact I'.
  Qed.
  (* the largest residual bounds all that is left *)
  Lemma left_bound D c v : sources_at n S D -> is_max n n D c -> is_max n n (spread n D psf) v -> (1 + mu - mu * K) * c <= v.
  Proof.
    intros HD Mc [_ Bv]. destruct (flux_le D c HD Mc) as [c0 F]. destruct Mc as [(x & y & I & Ec) Bc].
    pose proof (Bv x y I) as V. destruct (spread_bounds D x y) as [L _]; [intros; apply HD; assumption|exact I|]. rewrite Ec in L.
    assert (mu * flux n D <= mu * (K * c)) by (apply Rmult_le_compat_l; assumption). lra.
  Qed.

  (* one cycle takes flux from a source, and not more than it has *)
  Lemma pick D v p q : sources_at n S D -> is_max n n (spread n D psf) v -> in_image n n p q -> spread n D psf p q = v -> v <> 0 ->
    0 < v /\ gamma * v <= D p q.
  Proof.
    intros HD Mv I Ev Nv. pose proof (amax_spec n n D Hn Hn) as Mc. set (c := amax n n D) in *.
    destruct (flux_le D c HD Mc) as [c0 F]. pose proof (left_bound D c v HD Mc Mv) as LB.
    destruct Gain as [G0 G].
    assert (Pos : forall x y, in_image n n x y -> 0 <= D x y) by (intros; apply HD; assumption).
    destruct (spread_bounds D p q Pos I) as [_ U]. rewrite Ev in U.
    assert (FM : mu * flux n D <= mu * (K * c)) by (apply Rmult_le_compat_l; assumption).
    assert (MK : 0 <= mu * K) by (apply Rmult_le_pos; [exact Mu|apply pos_INR]).
    assert (c1 : 0 < c).
    { destruct (Rle_lt_or_eq_dec 0 c c0) as [|Z]; [assumption|exfalso]. apply Nv. apply Rle_antisym.
      - rewrite <- Z in *. assert (D p q <= 0) by (apply (proj2 Mc); exact I). pose proof (Pos p q I). assert (E0 : D p q = 0) by lra. rewrite E0 in U. lra.
      - rewrite <- Z in LB. lra. }
    assert (A0 : 0 < 1 + mu - 2 * mu * K) by lra.
    assert (B0 : 0 < 1 + mu - mu * K) by lra.
    assert (v0 : 0 < v) by (assert (0 < (1 + mu - mu * K) * c) by (apply Rmult_lt_0_compat; assumption); lra).
    split; [exact v0|].
    (* K is at least 1, so mu < 1 *)
    assert (K1 : 1 <= K).
    { destruct Mc as [(x & y & J & Ec) _]. assert (In (x, y) S) by (apply HD; [exact J|lra]). destruct S as [|s S']; [contradiction|].
      change (length (s :: S')) with (Datatypes.S (length S')). rewrite S_INR. pose proof (pos_INR (length S')). lra. }
    assert (m1 : mu < 1) by nra.
    set (d := D p q) in *. set (A := 1 + mu - 2 * mu * K) in *. set (B := 1 + mu - mu * K) in *.
    assert (dA : c * A <= d * (1 - mu)) by (unfold A, B in *; lra).
    assert (dv : A * v <= d * (1 - mu) * B).
    { assert (v <= (1 - mu) * d + mu * K * c) by lra. assert (A * v <= A * ((1 - mu) * d + mu * K * c)) by (apply Rmult_le_compat_l; lra).
      assert (mu * K * (c * A) <= mu * K * (d * (1 - mu))) by (apply Rmult_le_compat_l; assumption).
      replace B with (A + mu * K) by (unfold A, B; ring). lra. }
    assert (dB : 0 <= d * ((1 - mu) * B)) by (apply Rmult_le_pos; [apply Pos; exact I|apply Rmult_le_pos; lra]).
    apply (Rmult_le_reg_l A); [exact A0|]. assert (gamma * (A * v) <= gamma * (d * (1 - mu) * B)) by (apply Rmult_le_compat_l; assumption).
    assert (d * (gamma * ((1 - mu) * B)) <= d * A) by (apply Rmult_le_compat_l; [apply Pos; exact I|exact G]). lra.
  Qed.

  Lemma flux_less D g p q : in_image n n p q -> flux n (less D g p q) = flux n D - g.
  Proof. intros I. rewrite !flux_inner, inner_less by exact I. unfold ones. ring. Qed.

  Context (sky : arr2 R) (Sky : sources_at n S sky).
  Definition good (C R : arr2 R) : Prop := (forall x y, in_image n n x y -> 0 <= C x y <= sky x y) /\ fits n psf sky C R.
  Lemma good_left C R : good C R -> sources_at n S (minus sky C).
  Proof.
    intros [H _] x y I. specialize (H x y I). destruct (Sky x y I) as [S1 S2]. unfold minus. split; [lra|]. intros N. apply S2. intros Z. rewrite Z in *. lra.
  Qed.
  Lemma max_ext a b v : (forall x y, in_image n n x y -> a x y = b x y) -> is_max n n a v -> is_max n n b v.
  Proof. intros H [(x & y & I & E) B]. split; [exists x, y; split; [exact I|now rewrite <- H]|]. intros x' y' I'. rewrite <- H by exact I'. now apply B. Qed.

  Lemma good_step thr v p q C R C' R' : 0 <= thr -> good C R -> is_max n n R v -> last_with n n R v p q -> thr < Rabs v ->
    minor_cycle n psf gamma v p q C R C' R' -> good C' R' /\ thr < v /\ flux n (minus sky C') = flux n (minus sky C) - gamma * v.
  Proof.
    intros T0 Gd Mv (I & Ev & _) Tv [MC MR]. pose proof Gd as [Hc Hf].
    pose proof (max_ext R (spread n (minus sky C) psf) v Hf Mv) as Mv'.
    assert (Ev' : spread n (minus sky C) psf p q = v) by (rewrite <- Hf by exact I; exact Ev).
    assert (Nv : v <> 0) by (intros Z; rewrite Z, Rabs_R0 in Tv; lra).
    destruct (pick _ _ p q (good_left C R Gd) Mv' I Ev' Nv) as [v0 Pk].
    assert (EC : forall x y, minus sky C' x y = less (minus sky C) (gamma * v) p q x y).
    { intros x y. unfold minus, less. rewrite MC. destruct (Nat.eqb x p), (Nat.eqb y q); cbn [andb]; ring. }
    assert (gv : 0 <= gamma * v) by (apply Rmult_le_pos; [exact (proj1 Gain)|lra]).
    rewrite Rabs_right in Tv by lra. split; [split|split; [exact Tv|]].
    - intros x y J. specialize (Hc x y J). rewrite MC. destruct (Nat.eqb_spec x p) as [->|]; [destruct (Nat.eqb_spec y q) as [->|]|]; cbn [andb]; [|exact Hc|exact Hc].
      unfold minus in Pk. lra.
    - intros x y J. rewrite MR, (Hf x y J) by exact J. rewrite (spread_ext n (minus sky C') (less (minus sky C) (gamma * v) p q)) by (intros; apply EC).
      now rewrite spread_less.
    - rewrite <- (flux_less (minus sky C) (gamma * v) p q I). apply rsum_ext. intros x _. apply rsum_ext. intros y _. apply EC.
  Qed.

  Lemma good_run thr k Cs Rs : 0 <= thr -> good (Cs 0%nat) (Rs 0%nat) -> clean_run n psf gamma thr k Cs Rs ->
    good (Cs k) (Rs k) /\ flux n (minus sky (Cs k)) <= flux n (minus sky (Cs 0%nat)) - INR k * (gamma * thr).
  Proof.
    intros T0 G0. induction k as [|k IH]; intros Run; [split; [exact G0|cbn; lra]|].
    destruct IH as [Gk Fk]; [intros i Hi; apply Run; lia|]. destruct (Run k ltac:(lia)) as (v & p & q & Mv & Lw & Tv & Mc).
    destruct (good_step thr v p q _ _ _ _ T0 Gk Mv Lw Tv Mc) as (G' & v0 & F'). split; [exact G'|]. rewrite F', S_INR.
    assert (gamma * thr <= gamma * v) by (apply Rmult_le_compat_l; [exact (proj1 Gain)|lra]). lra.
  Qed.

  Context (dirty : arr2 R) (Dirty : forall x y, in_image n n x y -> dirty x y = spread n sky psf x y).
  Lemma good_start C : (forall x y, C x y = 0) -> good C dirty /\ flux n (minus sky C) = flux n sky.
  Proof.
    intros C0. split; [split|].
    - intros x y I. rewrite C0. destruct (Sky x y I). lra.
    - intros x y I. rewrite Dirty by exact I. apply spread_ext. intros p q _. unfold minus. rewrite C0. ring.
    - apply rsum_ext. intros x _. apply rsum_ext. intros y _. unfold minus. rewrite C0. ring.
  Qed.

  Theorem iso_components threshold niter C R : 0 <= fraction threshold ->
    hogbom_clean n n dirty (2 * n) (2 * n) psf gamma threshold niter = Ok (C, R) ->
    (forall x y, in_image n n x y -> 0 <= C x y <= sky x y) /\
    exists r, is_max n n R r /\ forall x y, in_image n n x y -> (1 + mu - mu * K) * (sky x y - C x y) <= r.
  Proof.
    intros T E. destruct (hogbom_spec n dirty psf gamma threshold niter Hn) as (v & k & Cs & Rs & M & E' & Kk & C0 & R0 & Run & _).
    rewrite E in E'. injection E' as -> ->. fold (fraction threshold) in Run.
    destruct (good_start (Cs 0%nat) C0) as [G0 _]. rewrite <- R0 in G0.
    destruct (good_run _ k Cs Rs ltac:(apply Rmult_le_pos; [exact T|apply Rabs_pos]) G0 Run) as [Gk _].
    split; [exact (proj1 Gk)|]. pose proof (amax_spec n n (Rs k) Hn Hn) as Mr. exists (amax n n (Rs k)). split; [exact Mr|].
    intros x y I. pose proof (amax_spec n n (minus sky (Cs k)) Hn Hn) as Mc.
    pose proof (left_bound _ _ _ (good_left _ _ Gk) Mc (max_ext _ _ _ (proj2 Gk) Mr)) as LB.
    assert (mu * K <= 2 * mu * K). { assert (0 <= mu * K) by (apply Rmult_le_pos; [exact Mu|apply pos_INR]). lra. }
    assert ((1 + mu - mu * K) * (sky x y - Cs k x y) <= (1 + mu - mu * K) * amax n n (minus sky (Cs k))); [|lra].
    apply Rmult_le_compat_l; [lra|]. exact (proj2 Mc x y I).
  Qed.

  Theorem iso_recovers threshold niter v C R : 0 <= fraction threshold -> is_max n n dirty v ->
    let thr := fraction threshold * Rabs v in
    flux n sky < IZR (niter_of n niter + 1) * (gamma * thr) ->
    hogbom_clean n n dirty (2 * n) (2 * n) psf gamma threshold niter = Ok (C, R) ->
    forall x y, in_image n n x y -> 0 <= sky x y - C x y <= thr / (1 + mu - mu * K).
  Proof.
    intros T Mv thr Hk E. destruct (hogbom_spec n dirty psf gamma threshold niter Hn) as (v' & k & Cs & Rs & M' & E' & Kk & C0 & R0 & Run & Stop).
    rewrite (max_unique _ _ _ _ M' Mv) in *. clear v' M'. pose proof E as E2. rewrite E in E'. injection E' as -> ->. fold (fraction threshold) in Run, Stop. fold thr in Run, Stop.
    assert (T0 : 0 <= thr) by (apply Rmult_le_pos; [exact T|apply Rabs_pos]).
    destruct (good_start (Cs 0%nat) C0) as [G0 F0]. rewrite <- R0 in G0. destruct (good_run thr k Cs Rs T0 G0 Run) as [Gk Fk]. rewrite F0 in Fk.
    destruct (iso_components threshold niter (Cs k) (Rs k) T E2) as [H1 (r & Mr & Hr)].
    assert (Hr' : Rabs r <= thr).
    { destruct (Nat.lt_ge_cases k (Z.to_nat (niter_of n niter + 1))) as [L|L].
      - destruct (Stop L) as (w & Mw & B). rewrite (max_unique _ _ _ _ Mr Mw). exact B.
      - exfalso. assert (P : 0 <= flux n (minus sky (Cs k))).
        { apply rsum_nonneg. intros x Hx. apply rsum_nonneg. intros y Hy. destruct (good_left _ _ Gk x y (conj Hx Hy)) as [A _]. exact A. }
        assert (IZR (niter_of n niter + 1) <= INR k) by (rewrite INR_IZR_INZ; apply IZR_le; lia).
        assert (0 <= gamma * thr) by (apply Rmult_le_pos; [exact (proj1 Gain)|exact T0]).
        assert (IZR (niter_of n niter + 1) * (gamma * thr) <= INR k * (gamma * thr)) by (apply Rmult_le_compat_r; assumption). lra. }
    intros x y I. specialize (H1 x y I). specialize (Hr x y I). split; [lra|]. pose proof (Rle_abs r).
    assert (0 <= mu * K) by (apply Rmult_le_pos; [exact Mu|apply pos_INR]). assert (B0 : 0 < 1 + mu - mu * K) by lra.
    apply (Rmult_le_reg_l (1 + mu - mu * K)); [exact B0|]. replace ((1 + mu - mu * K) * (thr / (1 + mu - mu * K))) with thr by (field; lra). lra.
  Qed.
End Iso.
