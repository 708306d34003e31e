(* values of the gridder, facets, and the dask gridder *)
From Coq Require Import String Reals Lra FunctionalExtensionality.
From Verif Require Import Prelude PreludeFacts CRing CplxR LoopFacts StokesGridModel StokesGridSpec StokesGridProofs FacetModel FacetProofs GridModel GridSpec GridProofs GridProofs2 GridProofs3 GridProofs4.
Close Scope R_scope.
Open Scope nat_scope.

Lemma bands_max nchan cm : 0 < nchan -> exists nb, bands nchan cm = Ok nb /\ (forall c, c < nchan -> cm c < nb) /\ exists c, c < nchan /\ nb = cm c + 1.
Proof.
  intros H. destruct nchan as [|n]; [lia|]. clear H. unfold bands. eexists. split; [reflexivity|].
  assert (X : forall n, (forall c, c < n -> cm c <= for_ n (fun c m => Nat.max m (cm c)) 0) /\ (0 < n -> exists c, c < n /\ for_ n (fun c m => Nat.max m (cm c)) 0 = cm c)).
  { clear n. induction n as [|n (IH1 & IH2)]; [split; intros; lia|]. rewrite for_S. split.
    - intros c Hc. destruct (Nat.eq_dec c n) as [->|]; [lia|]. specialize (IH1 c ltac:(lia)). lia.
    - intros _. destruct (Nat.le_gt_cases (for_ n (fun c m => Nat.max m (cm c)) 0) (cm n)).
      + exists n. split; [lia|]. lia.
      + destruct IH2 as (c & Hc & Ec). { destruct n; [cbn in *; lia|lia]. } exists c. split; [lia|]. lia. }
  destruct (X (S n)) as (X1 & X2). split; [intros c Hc; specialize (X1 c Hc); lia|]. destruct X2 as (c & Hc & Ec); [lia|]. exists c. split; [exact Hc|]. now rewrite Ec.
Qed.

Lemma coordinate_eq npix cell lambda x : (x * scale_factor npix cell / lambda)%R = grid_coordinate npix cell lambda x.
Proof. unfold scale_factor, grid_coordinate, Rdiv. ring. Qed.

Section Value.
  Variables (npix nrow nchan ncorr : nat) (a : setup) (wl : arr R) (cm : arr nat) (K : arr R) (W os : nat).
  Variables (P : nat -> arr2 RC -> arr R -> nat -> arr R -> R -> R -> R -> R -> R -> arr2 RC) (B : arr R -> nat -> R -> R -> R -> R -> arr R) (S : arr RC -> RC).
  Hypothesis EP : phase_policy (phase a) = Ok P.
  Hypothesis EB : baseline_policy (baseline a) = Ok B.
  Hypothesis ES : corr2stokes (stokes_conversion a) ncorr = Ok S.
  Hypothesis EC : convolution a = "conv_1d_axisymmetric_unpacked_scatter"%string.
  Hypothesis EK : kern a = kernel_of K W os.
  Hypothesis HW : W mod 2 = 1.
  Hypothesis Ho : 0 < os.
  Lemma value uvw vis dn (du fu dv fv : nat -> nat -> Z) : 0 < nchan ->
    let uvw' r := B uvw r (fst (phase_centre a)) (snd (phase_centre a)) (fst (image_centre a)) (snd (image_centre a)) in
    let vis' r := P nchan (vis r) uvw r wl (fst (phase_centre a)) (snd (phase_centre a)) (fst (image_centre a)) (snd (image_centre a)) 1%R in
    (forall r c, r < nrow -> c < nchan -> placed os (position npix (grid_coordinate npix (cell a) (wl c) (uvw' r (comp r 0)))) (du r c) (fu r c)) ->
    (forall r c, r < nrow -> c < nchan -> placed os (position npix (grid_coordinate npix (cell a) (wl c) (uvw' r (comp r 1)))) (dv r c) (fv r c)) ->
    exists g u v, gridder nrow 3 uvw nrow nchan ncorr vis nchan wl nchan cm npix a dn = Ok (g, (u, v)) /\
      (forall b y x, (exists c, c < nchan /\ b <= cm c) -> y < npix -> x < npix ->
         g b y x = cmul (over_band nrow nchan cm b (fun r c => cmul (ofR (tap K W os (dv r c) (fv r c) y * tap K W os (du r c) (fu r c) x)%R) (S (vis' r c))))
                        (if dn then ofR (/ (over_band (K := RR) nrow nchan cm b (fun r c => (all_taps K W os (fv r c) * all_taps K W os (fu r c))%R) + 1 / 100000000))%R else c1)) /\
      (forall r i, r < nrow -> i < 3 -> u (comp r i) = uvw' r (comp r i)) /\ (forall r, r < nrow -> v r = vis' r).
  Proof.
    intros Hn uvw' vis' Pu Pv. destruct (bands_max nchan cm Hn) as (nb & Eb & Hnb & (cb & Hcb & Ecb)).
    assert (Esc : scatter_policy (convolution a) = Ok (convolve_scatter unpacked_index)) by (rewrite EC; reflexivity).
    assert (Q : forall r c i, coord npix a wl (after_uvw a B uvw r) r c i = grid_coordinate npix (cell a) (wl c) (uvw' r (comp r i))).
    { intros r c i. unfold coord. rewrite coordinate_eq. reflexivity. }
    assert (SV : forall r c grid v, r < nrow -> c < nchan -> exists g' cw, convolve_scatter unpacked_index (coord npix a wl (after_uvw a B uvw r) r c 0) (coord npix a wl (after_uvw a B uvw r) r c 1) npix grid v S (kern a) = Ok (g', cw) /\
       (forall y x, y < npix -> x < npix -> g' y x = cadd (grid y x) (cmul (ofR (tap K W os (dv r c) (fv r c) y * tap K W os (du r c) (fu r c) x)%R) (S v))) /\
       cw = (all_taps K W os (fv r c) * all_taps K W os (fu r c))%R).
    { intros r c grid v Hr Hc. rewrite !Q, EK. destruct (scatter_value K W os npix _ _ _ _ _ _ HW Ho (Pu r c Hr Hc) (Pv r c Hr Hc) grid v S) as (g' & cw & E & H1 & _ & H2). exists g', cw. auto. }
    destruct (gridder_run npix nchan ncorr a wl cm P B S _ EP EB ES Esc nrow nb uvw vis dn Eb) as (g & u & v & E & Hg & Hu & Hv).
    { intros r Hr c Hc. unfold fine. destruct (SV r c (fun _ _ => c0) (fun _ => c0) Hr Hc) as (g' & cw & E & _). rewrite E. eauto. }
    exists g, u, v. split; [exact E|]. split; [|split].
    - intros b y x (c1' & Hc1 & Hb) Hy Hx. rewrite Hg. unfold over_band. f_equal.
      + apply csum_ext. intros r Hr. unfold row_cell. apply csum_ext. intros c Hc. destruct (cm c =? b); [|reflexivity].
        unfold contribution. destruct (SV r c (fun _ _ => c0) (after_vis nchan a wl P (vis r) uvw r c) Hr Hc) as (g' & cw & E' & H1 & _). rewrite E', H1 by assumption.
        unfold vis', after_vis. match goal with |- cadd _ ?z = _ => generalize z end. intros [p q]. apply injective_projections; cbn; ring.
      + unfold normal. assert (L : (b <? nb) = true) by (apply Nat.ltb_lt; specialize (Hnb c1' Hc1); lia). rewrite L. destruct dn; cbn [andb]; [|reflexivity].
        do 3 f_equal. apply (csum_ext (K := RR)). intros r Hr. unfold row_weight. apply (csum_ext (K := RR)). intros c Hc. destruct (cm c =? b); [|reflexivity].
        unfold weight. destruct (SV r c (fun _ _ => c0) (fun _ => c0) Hr Hc) as (g' & cw & E' & _ & H2). now rewrite E', H2.
    - intros r i Hr Hi. rewrite Hu by exact Hi. destruct (Nat.ltb_spec r nrow); [reflexivity|lia].
    - intros r Hr. rewrite Hv. destruct (Nat.ltb_spec r nrow); [reflexivity|lia].
  Qed.
End Value.

(* without transformations the caller's arrays are left alone *)
Lemma untouched nrow uvw nchan ncorr vis wl cm npix a dn g u v : baseline a = "None"%string -> phase a = None \/ phase a = Some "None"%string ->
  gridder nrow 3 uvw nrow nchan ncorr vis nchan wl nchan cm npix a dn = Ok (g, (u, v)) -> u = uvw /\ v = vis.
Proof.
  intros Hb Hp H. destruct (gridder_policies _ _ _ _ _ _ _ _ _ _ _ _ _ _ _ H) as (P & B & S & sc & EP & EB & ES & EC).
  destruct (gridder_inv npix nchan ncorr a wl cm P B S sc EP EB ES EC _ _ _ _ _ _ _ _ _ H) as (_ & _ & _ & _ & (nb & Hnb) & F).
  destruct (gridder_run npix nchan ncorr a wl cm P B S sc EP EB ES EC nrow nb uvw vis dn Hnb F) as (g0 & u0 & v0 & E0 & _ & Hu & Hv). rewrite H in E0. injection E0 as -> -> ->.
  assert (Bn : forall m r, after_uvw a B m r = m). { intros m r. unfold after_uvw. rewrite Hb in EB. injection EB as <-. reflexivity. }
  assert (Pn : forall x m r, after_vis nchan a wl P x m r = x). { intros x m r. unfold after_vis. destruct Hp as [Hp|Hp]; rewrite Hp in EP; injection EP as <-; reflexivity. }
  split.
  - extensionality q. assert (E : q = comp (q / 3) (q mod 3)) by (unfold comp; apply Nat.div_mod; lia). rewrite E. rewrite Hu by (apply Nat.mod_upper_bound; lia). rewrite Bn. now destruct (q / 3 <? nrow).
  - extensionality r. rewrite Hv, Pn. now destruct (r <? nrow).
Qed.
Lemma facets_untouched nrow nchan ncorr uvw vis wl cm npix a dn centres gs : baseline a = "None"%string -> phase a = None \/ phase a = Some "None"%string ->
  grid_facets nrow nchan ncorr uvw vis wl cm npix a dn centres = Ok gs ->
  Forall2 (fun f g => exists uv, gridder nrow 3 uvw nrow nchan ncorr vis nchan wl nchan cm npix (facet_at a f) dn = Ok (g, uv)) centres gs.
Proof.
  intros Hb Hp. revert gs. induction centres as [|f rest IH]; intros gs; cbn [grid_facets].
  - intros H. injection H as <-. constructor.
  - fold (facet_at a f). destruct (gridder nrow 3 uvw nrow nchan ncorr vis nchan wl nchan cm npix (facet_at a f) dn) as [[g [u v]]|] eqn:E; [|discriminate]. cbn [bind].
    destruct (untouched nrow uvw nchan ncorr vis wl cm npix (facet_at a f) dn g u v Hb Hp E) as (-> & ->).
    destruct (grid_facets nrow nchan ncorr uvw vis wl cm npix a dn rest) as [gs'|]; [|discriminate]. cbn [bind]. intros H. injection H as <-. constructor; [eauto|now apply IH].
Qed.

Lemma blocks_sum nchan ncorr uvw vis wl cm npix a f rows : forall r0 g uv,
  gridder (list_sum rows) 3 (fun i => uvw (3 * r0 + i)) (list_sum rows) nchan ncorr (fun r => vis (r0 + r)) nchan wl nchan cm npix (facet_at a f) false = Ok (g, uv) ->
  exists blocks, grid_blocks nchan ncorr uvw vis wl cm npix a false [f] r0 rows = Ok blocks /\
    forall b y x, fold_right (fun h acc => cadd (nth 0 h (fun _ _ _ => c0) b y x) acc) c0 blocks = g b y x.
Proof.
  induction rows as [|n rows IH]; intros r0 g uv H.
  - exists []. split; [reflexivity|]. intros b y x. cbn [fold_right]. change (list_sum []) with 0 in H.
    destruct (gridder_policies _ _ _ _ _ _ _ _ _ _ _ _ _ _ _ H) as (P & B & S & sc & EP & EB & ES & EC).
    destruct (gridder_inv npix nchan ncorr (facet_at a f) wl cm P B S sc EP EB ES EC _ _ _ _ _ _ _ _ _ H) as (_ & _ & _ & _ & (nb & Hnb) & F).
    destruct (gridder_run npix nchan ncorr (facet_at a f) wl cm P B S sc EP EB ES EC 0 nb (fun i => uvw (3 * r0 + i)) (fun r => vis (r0 + r)) false Hnb F) as (g0 & u0 & v0 & E0 & Hg & _). rewrite H in E0. injection E0 as -> ->.
    rewrite Hg. cbn [csum]. unfold normal. cbn [andb]. apply injective_projections; cbn; ring.
  - change (list_sum (n :: rows)) with (n + list_sum rows) in H. destruct (additive n (list_sum rows) _ _ _ _ _ _ _ _ _ _ H) as (g1 & uv1 & g2 & uv2 & E1 & E2 & Hg).
    destruct (IH (r0 + n) g2 uv2) as (blocks & Eb & Hs).
    { replace (fun i => uvw (3 * (r0 + n) + i)) with (fun q => uvw (3 * r0 + (3 * n + q))) by (extensionality q; f_equal; lia).
      replace (fun r => vis (r0 + n + r)) with (fun r => vis (r0 + (n + r))) by (extensionality r; f_equal; lia). exact E2. }
    exists ([g1] :: blocks). cbn [grid_blocks grid_facets]. fold (facet_at a f). rewrite E1. cbn [bind]. destruct uv1 as [u1 v1]. cbn [bind]. rewrite Eb. cbn [bind]. split; [reflexivity|].
    intros b y x. cbn [fold_right]. rewrite Hs, Hg. reflexivity.
Qed.
Lemma dask_mean rows nchan ncorr uvw vis wl cm npix a f g uv : rows <> [] ->
  gridder (list_sum rows) 3 uvw (list_sum rows) nchan ncorr vis nchan wl nchan cm npix (facet_at a f) false = Ok (g, uv) ->
  exists d, dask_gridder rows [nchan] ncorr uvw vis wl cm npix a false [f] = Ok d /\ forall b y x, cmul (ofR (INR (List.length rows))) (d 0 b y x) = g b y x.
Proof.
  intros Hr H. destruct (blocks_sum nchan ncorr uvw vis wl cm npix a f rows 0 g uv) as (blocks & Eb & Hs); [exact H|].
  unfold dask_gridder. rewrite Eb. cbn [bind]. eexists. split; [reflexivity|]. intros b y x. cbv beta. rewrite Hs.
  assert (N : INR (List.length rows) <> 0%R). { destruct rows; [congruence|]. apply not_0_INR. discriminate. }
  generalize (g b y x). intros [p q]. unfold ofR. apply injective_projections; cbn; field; exact N.
Qed.
