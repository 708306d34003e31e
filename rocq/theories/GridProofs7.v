(* chunked degridding, and the cases in which facets, chunks and orders matter *)
From Coq Require Import String Reals Lra FunctionalExtensionality Permutation.
From Verif Require Import Prelude PreludeFacts CRing CplxR LoopFacts StokesGridModel StokesGridSpec StokesGridProofs FacetModel FacetSpec FacetProofs DftModel DftProofs GridModel GridSpec GridProofs GridProofs2 GridProofs3 GridProofs4 GridProofs5 GridProofs6.
Close Scope R_scope.
Open Scope nat_scope.

Lemma row_out_none npix nchan a wl cm stack P B gather tc m r : no_policies a -> phase_policy (phase a) = Ok P -> baseline_policy (baseline a) = Ok B ->
  row_out npix nchan a wl cm stack P B gather tc m r = dg_row npix nchan a wl cm stack gather tc r m (fun _ _ => c0).
Proof.
  intros (Hb & Hp) EP EB. assert (Bn : dg_uvw a B m r = m). { unfold dg_uvw. rewrite Hb in EB. injection EB as <-. reflexivity. }
  unfold row_out. rewrite Bn. destruct (dg_row npix nchan a wl cm stack gather tc r m (fun _ _ => c0)) as [row|]; [|reflexivity]. cbn [bind]. f_equal.
  unfold dg_vis. destruct Hp as [Hp|Hp]; rewrite Hp in EP; injection EP as <-; reflexivity.
Qed.
Lemma row_cut npix nchan a wl cm stack gather tc r m row q n : dg_row npix nchan a wl cm stack gather tc r m (fun _ _ => c0) = Ok row -> q + n <= nchan ->
  exists row', dg_row npix n a (fun c => wl (q + c)) (fun c => cm (q + c)) stack gather tc r m (fun _ _ => c0) = Ok row' /\ forall c, c < n -> row' c = row (q + c).
Proof.
  intros E Hn. destruct (dg_row_value npix nchan a wl cm stack gather tc r m (fun _ _ => c0)) as (H1 & _). specialize (H1 row E).
  destruct (dg_row_value npix n a (fun c => wl (q + c)) (fun c => cm (q + c)) stack gather tc r m (fun _ _ => c0)) as (H2 & H3).
  assert (X : forall c, c < n -> gather (coord npix a (fun c => wl (q + c)) m r c 0) (coord npix a (fun c => wl (q + c)) m r c 1) npix (stack (cm (q + c))) (fun _ => c0) tc (kern a) = Ok (row (q + c))).
  { intros c Hc. destruct (H1 (q + c)) as (H & _). apply H. lia. }
  destruct H3 as (row' & E'); [intros c Hc; exists (row (q + c)); now apply X|]. exists row'. split; [exact E'|]. intros c Hc. destruct (H2 row' E' c) as (H & _). specialize (H Hc). rewrite (X c Hc) in H. now injection H.
Qed.
Lemma channel_block q n nrow uvw gb gy gx stack nchan wl cm a v u : no_policies a -> degridder_serial nrow 3 uvw gb gy gx stack nchan wl nchan cm a = Ok (v, u) -> 0 < n -> q + n <= nchan ->
  exists v1 u1, degridder_serial nrow 3 uvw gb gy gx stack n (fun c => wl (q + c)) n (fun c => cm (q + c)) a = Ok (v1, u1) /\ forall r c, r < nrow -> c < n -> v1 r c = v r (q + c).
Proof.
  intros Hno H Hn Hq. destruct (degridder_split _ _ _ _ _ _ _ _ _ _ _ _ _ _ H) as (P & B & nc & tc & gather & nb & EP & EB & En & Et & Eg & _ & Eb & <- & Hb & _ & Er).
  pose proof (serial_inv gy nchan a wl cm stack P B gather tc EP EB nrow uvw _ Er) as I.
  destruct (serial_run gy nchan a wl cm stack P B gather tc EP EB nrow uvw I) as (s & Es & Hs & _). rewrite Er in Es. injection Es as <-. cbn [snd] in Hs.
  assert (X : forall r, r < nrow -> exists row', row_out gy n a (fun c => wl (q + c)) (fun c => cm (q + c)) stack P B gather tc uvw r = Ok row' /\ forall c, c < n -> row' c = v r (q + c)).
  { intros r Hr. specialize (Hs r Hr). rewrite row_out_none in Hs by assumption. rewrite row_out_none by assumption. exact (row_cut gy nchan a wl cm stack gather tc r uvw (v r) q n Hs Hq). }
  destruct (serial_run gy n a (fun c => wl (q + c)) (fun c => cm (q + c)) stack P B gather tc EP EB nrow uvw) as (s1 & Es1 & Hs1 & _).
  { intros r Hr. destruct (X r Hr) as (row' & E & _). eauto. }
  destruct (bands_max n (fun c => cm (q + c)) Hn) as (nb' & Eb' & _ & (cb & Hcb & Ecb)).
  destruct (bands_max nchan cm) as (nb2 & Eb2 & Hnb2 & _); [lia|]. rewrite Eb in Eb2. injection Eb2 as <-.
  exists (snd s1), (fst s1). split.
  - apply (degridder_join nrow uvw gb gy stack n _ _ a P B nc tc gather nb' s1); auto. specialize (Hnb2 (q + cb)). lia.
  - intros r c Hr Hc. specialize (Hs1 r Hr). destruct (X r Hr) as (row' & E & Hrow). rewrite E in Hs1. assert (G : snd s1 r = row') by congruence. rewrite G. now apply Hrow.
Qed.
Lemma locate_end chunks : forall start i, start <= i < start + list_sum chunks -> forall s n, locate start chunks i = (s, n) -> s + n <= start + list_sum chunks.
Proof.
  induction chunks as [|k rest IH]; cbn [locate]; intros start i H s n E; [cbn in H; lia|].
  change (list_sum (k :: rest)) with (k + list_sum rest) in *. destruct (Nat.ltb_spec i (start + k)); [injection E as <- <-; lia|].
  specialize (IH (start + k) i ltac:(lia) s n E). lia.
Qed.
Lemma dask_degrid nf rest rows chans uvw gb gy gx stack wl cm a (v : nat -> arr3 RC) (u : nat -> arr R) : no_policies a ->
  (forall f, f < nf -> degridder_serial (list_sum rows) 3 uvw gb gy gx (stack f) (list_sum chans) wl (list_sum chans) cm a = Ok (v f, u f)) ->
  forall r c k, r < list_sum rows -> c < list_sum chans -> dask_degridder (nf :: rest) rows chans uvw gb gy gx stack wl cm a r c k = Ok (csum nf (fun f => v f r c k)).
Proof.
  intros Hno H r c k Hr Hc. unfold dask_degridder.
  destruct (locate 0 rows r) as [r0 nr] eqn:Lr. destruct (locate 0 chans c) as [q nc] eqn:Lc.
  destruct (locate_spec rows 0 r ltac:(lia) r0 nr Lr) as (Br & _). destruct (locate_spec chans 0 c ltac:(lia) q nc Lc) as (Bc & _).
  pose proof (locate_end rows 0 r ltac:(lia) r0 nr Lr) as Er. pose proof (locate_end chans 0 c ltac:(lia) q nc Lc) as Ec. cbn [Nat.add] in Er, Ec.
  destruct Hno as (Hb & Hp). rewrite Hb. replace (match phase a with None => true | Some p => (p =? "None")%string end) with true by (destruct Hp as [-> | ->]; reflexivity).
  change (negb (("None" =? "None")%string && true)) with false. cbv iota.
  assert (X : forall f, f < nf -> exists v2 u2, degridder_serial nr 3 (fun i => uvw (3 * r0 + i)) gb gy gx (stack f) nc (fun c => wl (q + c)) nc (fun c => cm (q + c)) a = Ok (v2, u2) /\ v2 (r - r0) (c - q) k = v f r c k).
  { intros f Hf. destruct (row_block r0 nr _ _ _ _ _ _ _ _ _ _ _ _ _ _ (H f Hf) Er) as (v1 & u1 & E1 & H1).
    destruct (channel_block q nc nr _ gb gy gx (stack f) _ wl cm a v1 u1 (conj Hb Hp) E1 ltac:(lia) Ec) as (v2 & u2 & E2 & H2).
    exists v2, u2. split; [exact E2|]. rewrite H2 by lia. rewrite H1 by lia. do 2 f_equal; lia. }
  clear H. induction nf as [|nf IH]; [reflexivity|]. cbn [forM csum]. rewrite IH by (intros f Hf; apply X; lia). cbn [bind].
  destruct (X nf) as (v2 & u2 & E2 & H2); [lia|]. rewrite E2. cbn [bind]. now rewrite H2.
Qed.

(* a kernel of one tap on a grid of one cell: everything lands in it *)
Definition spike : arr R := fun _ => 1%R.
Lemma tap_spike d f y : tap spike 1 1 d f y = if (Z.of_nat y =? d)%Z then 1%R else 0%R.
Proof. unfold tap. change (1 / 2) with 0. destruct (Z.leb_spec (Z.abs (Z.of_nat y - d)) (Z.of_nat 0)); destruct (Z.eqb_spec (Z.of_nat y) d); try lia; reflexivity. Qed.
Lemma placed_int x d : x = IZR d -> placed 1 x d 0.
Proof.
  intros ->. split.
  - left. rewrite Rminus_eq_0, Rabs_R0. lra.
  - replace ((IZR d - IZR d) * INR 1)%R with 0%R by ring. split; intros _; lra.
Qed.
(* one row of two correlations of a single or two channels, gridded into a single cell *)
Definition one_cell (ph : option string) (centre : R * R) : setup :=
  {| cell := 1; image_centre := centre; phase_centre := (0, 0)%R; kern := kernel_of spike 1 1; baseline := "None"; phase := ph;
     stokes_conversion := "I_FROM_XXYY"; convolution := "conv_1d_axisymmetric_unpacked_scatter" |}.
Definition straight_up : arr R := fun q => if Nat.eqb q 2 then (1 / 2)%R else 0%R.
Definition ones3 : arr3 RC := fun _ _ _ => c1.
Lemma cell_value nchan ph P centre (vis : arr3 RC) : 0 < nchan -> phase_policy ph = Ok P ->
  exists g v, gridder 1 3 straight_up 1 nchan 2 vis nchan (fun _ => 1%R) nchan (fun _ => 0) 1 (one_cell ph centre) false = Ok (g, (straight_up, v)) /\
    let vis' := P nchan (vis 0) straight_up 0 (fun _ => 1%R) 0%R 0%R (fst centre) (snd centre) 1%R in
    g 0 0 0 = csum nchan (fun c => cmul (cadd (vis' c 0) (vis' c 1)) half) /\ v 0 = vis'.
Proof.
  intros Hn EP.
  pose proof (value 1 1 nchan 2 (one_cell ph centre) (fun _ => 1%R) (fun _ => 0) spike 1 1 P (fun uvw _ _ _ _ _ => uvw) (fun v => cmul (cadd (v 0) (v 1)) half)
    EP eq_refl eq_refl eq_refl eq_refl eq_refl ltac:(lia) straight_up vis false (fun _ _ => 0%Z) (fun _ _ => 0%Z) (fun _ _ => 0%Z) (fun _ _ => 0%Z) Hn) as V.
  cbv zeta in V. destruct V as (g & u & v & E & Hg & _ & Hv).
  - intros r c Hr Hc. apply placed_int. replace r with 0 by lia. unfold position, grid_coordinate, straight_up, comp, one_cell. cbn -[PI]. lra.
  - intros r c Hr Hc. apply placed_int. replace r with 0 by lia. unfold position, grid_coordinate, straight_up, comp, one_cell. cbn -[PI]. lra.
  - exists g, v. cbv zeta. assert (U : u = straight_up).
    { destruct (gridder_policies _ _ _ _ _ _ _ _ _ _ _ _ _ _ _ E) as (P0 & B & S & sc & EP0 & EB & ES & EC).
      destruct (gridder_inv 1 nchan 2 _ _ _ P0 B S sc EP0 EB ES EC _ _ _ _ _ _ _ _ _ E) as (_ & _ & _ & _ & (nb & Hnb) & F).
      destruct (gridder_run 1 nchan 2 _ _ _ P0 B S sc EP0 EB ES EC 1 nb straight_up vis false Hnb F) as (g0 & u0 & v0 & E0 & _ & Hu & _). rewrite E in E0. injection E0 as -> -> ->.
      extensionality q. assert (Q : q = comp (q / 3) (q mod 3)) by (unfold comp; apply Nat.div_mod; lia). rewrite Q. rewrite Hu by (apply Nat.mod_upper_bound; lia). injection EB as <-. unfold after_uvw. now destruct (q / 3 <? 1). }
    rewrite U in E. split; [exact E|]. split; [|exact (Hv 0 Nat.lt_0_1)].
    rewrite Hg by (try lia; exists 0; lia). unfold over_band. cbn [csum]. rewrite !tap_spike. cbn [Z.of_nat Z.eqb].
    match goal with |- cmul (cadd c0 ?s) c1 = _ => transitivity s; [generalize s; intros [p q]; apply injective_projections; cbn; ring|] end. apply csum_ext. intros c Hc. cbn [Nat.eqb]. cbn [fst snd image_centre phase_centre one_cell].
    generalize (cmul (cadd (P nchan (vis 0) straight_up 0 (fun _ : nat => 1%R) 0%R 0%R (fst centre) (snd centre) 1%R c 0) (P nchan (vis 0) straight_up 0 (fun _ : nat => 1%R) 0%R 0%R (fst centre) (snd centre) 1%R c 1)) half).
    intros [p q]. unfold ofR. apply injective_projections; cbn; ring.
Qed.
Lemma half_turn (z : RC) : cmul z (cis (1 * 2 * PI * turns_of straight_up 0 0 0 (PI / 2) 0 / 1)) = copp z.
Proof.
  assert (E : (1 * 2 * PI * turns_of straight_up 0 0 0 (PI / 2) 0 / 1)%R = (- PI)%R).
  { unfold turns_of, facet_lmn, straight_up, comp. rewrite Rminus_0_r, cos_0, sin_0, sin_PI2, cos_PI2. cbn [Nat.eqb Nat.add Nat.mul].
    replace (1 - 1 * 1 * (1 * 1) - (0 * 1 - 1 * 0 * 0) * (0 * 1 - 1 * 0 * 0))%R with 0%R by ring. rewrite sqrt_0. field. }
  rewrite E. unfold cis. rewrite cos_neg, sin_neg, cos_PI, sin_PI. destruct z as [p q]. apply injective_projections; cbn; ring.
Qed.
(* the same facet twice: the second grid is not the first *)
Lemma second_facet : exists g1 g2, grid_facets 1 1 2 straight_up ones3 (fun _ => 1%R) (fun _ => 0) 1 (one_cell (Some "phase_rotate"%string) (0, 0)%R) false [(PI / 2, 0)%R; (PI / 2, 0)%R] = Ok [g1; g2] /\
  g1 0 0 0 = ((-1)%R, 0%R) /\ g2 0 0 0 = (1%R, 0%R).
Proof.
  destruct (cell_value 1 (Some "phase_rotate"%string) phase_rotate (PI / 2, 0)%R ones3 ltac:(lia) eq_refl) as (g1 & v1 & E1 & H1 & V1).
  destruct (cell_value 1 (Some "phase_rotate"%string) phase_rotate (PI / 2, 0)%R v1 ltac:(lia) eq_refl) as (g2 & v2 & E2 & H2 & V2).
  exists g1, g2. split.
  - cbn [grid_facets]. fold (facet_at (one_cell (Some "phase_rotate"%string) (0, 0)%R) (PI / 2, 0)%R). change (facet_at (one_cell (Some "phase_rotate"%string) (0, 0)%R) (PI / 2, 0)%R) with (one_cell (Some "phase_rotate"%string) (PI / 2, 0)%R).
    rewrite E1. cbn [bind]. rewrite E2. reflexivity.
  - cbv zeta in *. rewrite H1, H2, V1. cbn [csum fst snd]. rewrite !phase_rotate_at. cbn [Nat.ltb Nat.leb]. rewrite !half_turn. unfold ones3, half. split; apply injective_projections; cbn; field.
Qed.
(* two channels in two chunks: only the first arrives *)
Lemma later_channels : exists g uv d, gridder 1 3 straight_up 1 2 2 ones3 2 (fun _ => 1%R) 2 (fun _ => 0) 1 (one_cell None (0, 0)%R) false = Ok (g, uv) /\
  dask_gridder [1] [1; 1] 2 straight_up ones3 (fun _ => 1%R) (fun _ => 0) 1 (one_cell None (0, 0)%R) false [(0, 0)%R] = Ok d /\
  g 0 0 0 = (2%R, 0%R) /\ d 0 0 0 0 = (1%R, 0%R).
Proof.
  destruct (cell_value 2 None _ (0, 0)%R ones3 ltac:(lia) eq_refl) as (g2 & v2 & E2 & H2 & V2).
  destruct (cell_value 1 None _ (0, 0)%R ones3 ltac:(lia) eq_refl) as (g1 & v1 & E1 & H1 & V1).
  exists g2, (straight_up, v2). destruct (dask_mean [1] 1 2 straight_up ones3 (fun _ => 1%R) (fun _ => 0) 1 (one_cell None (0, 0)%R) (0, 0)%R g1 (straight_up, v1)) as (d & Ed & Hd); [discriminate|exact E1|].
  exists d. split; [exact E2|]. split; [exact Ed|]. split.
  - rewrite H2. unfold ones3, half. cbn [csum fst snd]. apply injective_projections; cbn; field.
  - specialize (Hd 0 0 0). rewrite H1 in Hd. cbn [List.length INR] in Hd. destruct (d 0 0 0 0) as [p q]. unfold ones3, half, ofR in Hd. cbn in Hd. injection Hd as A B. apply injective_projections; cbn [fst snd]; lra.
Qed.
(* several blocks of rows *)
Lemma mean_not_sum rows nchan ncorr uvw vis wl cm npix a f g uv b y x : 2 <= List.length rows ->
  gridder (list_sum rows) 3 uvw (list_sum rows) nchan ncorr vis nchan wl nchan cm npix (facet_at a f) false = Ok (g, uv) -> g b y x <> c0 ->
  exists d, dask_gridder rows [nchan] ncorr uvw vis wl cm npix a false [f] = Ok d /\ d 0 b y x <> g b y x.
Proof.
  intros Hl H Hg. destruct (dask_mean rows nchan ncorr uvw vis wl cm npix a f g uv) as (d & Ed & Hd); [intros ->; cbn in Hl; lia|exact H|].
  exists d. split; [exact Ed|]. intros E. specialize (Hd b y x). rewrite E in Hd. apply Hg. assert (N : (2 <= INR (List.length rows))%R) by (apply (le_INR 2); exact Hl).
  generalize dependent (INR (List.length rows)). intros z Hd N. destruct (g b y x) as [p q]. unfold ofR in Hd. cbn in Hd. injection Hd as A B.
  assert (A' : ((z - 1) * p = 0)%R) by lra. assert (B' : ((z - 1) * q = 0)%R) by lra.
  apply Rmult_integral in A'. apply Rmult_integral in B'. apply injective_projections; cbn; lra.
Qed.
(* reading the next row: two rows processed in two orders *)
Definition quarter : setup :=
  {| cell := (3600 * 180 / (PI * 3))%R; image_centre := (0, 0)%R; phase_centre := (PI / 2, 0)%R; kern := kernel_of spike 1 1; baseline := "rotate"; phase := None;
     stokes_conversion := "XXYY_FROM_I"; convolution := "conv_1d_axisymmetric_unpacked_gather" |}.
Definition two_rows : arr R := fun q => if Nat.eqb q 3 then 1%R else 0%R.
Definition dot_grid : arr3 RC := fun _ y x => if Nat.eqb y 1 && Nat.eqb x 1 then c1 else c0.
Lemma quarter_u m : uvw_rotate m 0 0 0 (PI / 2) 0 0 = (- m 3%nat)%R.
Proof.
  destruct (rotate_values m 0 0 0 (PI / 2) 0) as (A & _). cbv zeta in A. change (comp 0 0) with 0 in A. rewrite A. unfold rot_matrix. rewrite Rminus_0_r, cos_0, sin_0, sin_PI2, cos_PI2. change (comp 0 3) with 3. ring.
Qed.
Lemma quarter_v m : uvw_rotate m 0 0 0 (PI / 2) 0 1 = m 1.
Proof.
  destruct (rotate_values m 0 0 0 (PI / 2) 0) as (_ & A & _). cbv zeta in A. change (comp 0 1) with 1 in A. rewrite A. unfold rot_matrix. rewrite Rminus_0_r, cos_0, sin_0, sin_PI2, cos_PI2. ring.
Qed.
Lemma quarter_row m (z : Z) : m 1 = 0%R -> m 3 = IZR z -> exists v u, degridder_serial 1 3 m 1 3 3 dot_grid 1 (fun _ => 1%R) 1 (fun _ => 0) quarter = Ok (v, u) /\
  (z = 0%Z -> v 0 0 0 <> c0) /\ (z = 1%Z -> v 0 0 0 = c0).
Proof.
  intros H1 H3.
  assert (SC : forall x, grid_coordinate 3 (cell quarter) 1 x = x).
  { intros x. unfold grid_coordinate, quarter. cbn [cell]. pose proof PI_neq0. cbn [INR]. field. assumption. }
  assert (PO : INR (3 / 2) = 1%R) by reflexivity.
  pose proof (degrid_value 3 1 1 quarter (fun _ => 1%R) (fun _ => 0) spike 1 1 dot_grid 1 [XX; YY] I _ _ eq_refl eq_refl ltac:(left; reflexivity)
    ltac:(exists XX; split; [left; reflexivity|discriminate]) eq_refl eq_refl eq_refl eq_refl ltac:(lia) m (fun _ _ => (1 - z)%Z) (fun _ _ => 0%Z) (fun _ _ => 1%Z) (fun _ _ => 0%Z) ltac:(lia) ltac:(intros; cbv beta; lia)) as V.
  cbv zeta in V. destruct V as (v & u & row & E & Hv & Hr & _).
  - intros r c Hr Hc. replace r with 0 by lia. apply placed_int. rewrite SC. unfold position. rewrite PO. change (comp 0 0) with 0. cbn [quarter image_centre phase_centre fst snd]. rewrite quarter_u, H3, minus_IZR. lra.
  - intros r c Hr Hc. replace r with 0 by lia. apply placed_int. rewrite SC. unfold position. rewrite PO. change (comp 0 1) with 1. cbn [quarter image_centre phase_centre fst snd]. rewrite quarter_v, H1. lra.
  - exists v, u. split; [exact E|]. rewrite (Hv 0) by lia. cbv beta. rewrite (Hr 0 0 0) by (cbn; lia). unfold under_kernel, taps_inside, over_grid, dot_grid. split; intros ->.
    + cbn [csum Nat.eqb andb]. rewrite !tap_spike. cbn. intros A. injection A as A _. lra.
    + cbn [csum Nat.eqb andb]. rewrite !tap_spike. cbn. apply injective_projections; cbn; lra.
Qed.
Lemma quarter_first m : m 3 = 1%R -> m 4 = 0%R -> m 6 = 0%R -> uvw_rotate m 1 0 0 (PI / 2) 0 3 = 0%R.
Proof.
  intros H3 H4 H6. destruct (rotate_values m 1 0 0 (PI / 2) 0) as (A & _). cbv zeta in A. change (comp 1 0) with 3 in A. change (comp 1 1) with 4 in A. change (comp 1 3) with 6 in A. rewrite A, H3, H4, H6. unfold rot_matrix. rewrite Rminus_0_r, cos_0, sin_0, sin_PI2, cos_PI2. ring.
Qed.
Definition both : RC -> arr RC -> arr RC := fun x out => add_at 1 x (add_at 0 x out).
Lemma quarter_ok r m : exists row, dg_row 3 1 quarter (fun _ => 1%R) (fun _ => 0) dot_grid (convolve_gather unpacked_index) both r m (fun _ _ => c0) = Ok row.
Proof.
  apply dg_row_value. intros c Hc.
  destruct (gather_layout [XX; YY] I both spike 1 1 3 (coord 3 quarter (fun _ => 1%R) m r c 0) (coord 3 quarter (fun _ => 1%R) m r c 1) _ _ _ _ ltac:(left; reflexivity) ltac:(exists XX; split; [left; reflexivity|discriminate]) eq_refl eq_refl ltac:(lia)
    (model_placed 3 _ 1) (model_placed 3 _ 1) (dot_grid 0)) as (v & E & _). exists v. exact E.
Qed.
Lemma two_orders : exists v u v' u',
  degridder_ordered [0; 1] 3 two_rows 1 3 3 dot_grid 1 (fun _ => 1%R) 1 (fun _ => 0) quarter = Ok (v, u) /\
  degridder_ordered [1; 0] 3 two_rows 1 3 3 dot_grid 1 (fun _ => 1%R) 1 (fun _ => 0) quarter = Ok (v', u') /\ v 0 0 0 <> v' 0 0 0.
Proof.
  set (P := fun (_ : nat) (vis : arr2 RC) (_ : arr R) (_ : nat) (_ : arr R) (_ _ _ _ _ : R) => vis).
  pose (D := degrid_row 3 1 quarter (fun _ => 1%R) (fun _ => 0) dot_grid P uvw_rotate (convolve_gather unpacked_index) both).
  assert (RO : forall r m, exists v, row_out 3 1 quarter (fun _ => 1%R) (fun _ => 0) dot_grid P uvw_rotate (convolve_gather unpacked_index) both m r = Ok v).
  { intros r m. unfold row_out. destruct (quarter_ok r (dg_uvw quarter uvw_rotate m r)) as (row & ->). eexists. reflexivity. }
  assert (J : forall order s, rows_in_order order D (two_rows, fun _ _ _ => c0) = Ok s -> degridder_ordered order 3 two_rows 1 3 3 dot_grid 1 (fun _ => 1%R) 1 (fun _ => 0) quarter = Ok (snd s, fst s)).
  { intros order s E. unfold degridder_ordered. change (phase_policy (phase quarter)) with (Ok P). change (baseline_policy (baseline quarter)) with (Ok uvw_rotate).
    change (ncorr_out (stokes_conversion quarter)) with (Ok 2). change (stokes2corr_impl (stokes_conversion quarter)) with (Ok both). change (gather_policy (convolution quarter)) with (Ok (convolve_gather unpacked_index)).
    cbn [bind Nat.eqb negb]. change (bands 1 (fun _ => 0)) with (Ok 1). cbn [bind]. change (1 <? 1) with false. cbv iota. fold D. rewrite E. reflexivity. }
  destruct (serial_run 3 1 quarter (fun _ => 1%R) (fun _ => 0) dot_grid P uvw_rotate (convolve_gather unpacked_index) both eq_refl eq_refl 2 two_rows) as (s & Es & Hs & _); [intros; apply RO|].
  pose proof (J [0; 1] s Es) as E1. exists (snd s), (fst s).
  destruct (quarter_row two_rows 1 eq_refl eq_refl) as (v1 & u1 & Ev1 & _ & Hv1). specialize (Hv1 eq_refl).
  destruct (row_block 0 1 2 3 two_rows 1 3 3 dot_grid 1 (fun _ => 1%R) 1 (fun _ => 0) quarter (snd s) (fst s) E1 ltac:(lia)) as (w1 & x1 & Ew1 & Hw1).
  change (fun i => two_rows (3 * 0 + i)) with two_rows in Ew1. rewrite Ev1 in Ew1. injection Ew1 as <- <-. specialize (Hw1 0 ltac:(lia)). cbn [Nat.add] in Hw1.
  (* the other order *)
  set (m1 := dg_uvw quarter uvw_rotate two_rows 1).
  destruct (quarter_ok 1 m1) as (row1 & R1). destruct (quarter_ok 0 (dg_uvw quarter uvw_rotate m1 0)) as (row0 & R0).
  assert (E2 : rows_in_order [1; 0] D (two_rows, fun _ _ _ => c0) = Ok (dg_uvw quarter uvw_rotate m1 0, fun r' => if Nat.eqb r' 0 then dg_vis 1 quarter (fun _ => 1%R) P row0 (dg_uvw quarter uvw_rotate m1 0) 0 else
     if Nat.eqb r' 1 then dg_vis 1 quarter (fun _ => 1%R) P row1 m1 1 else fun _ _ => c0)).
  { unfold rows_in_order. cbn [fold_left bind]. unfold D. rewrite degrid_row_eq. cbn [fst snd]. fold m1. rewrite R1. cbn [bind]. rewrite degrid_row_eq. cbn [fst snd Nat.eqb]. rewrite R0. reflexivity. }
  pose proof (J [1; 0] _ E2) as E3. cbn [fst snd] in E3. do 2 eexists. split; [exact E1|]. split; [exact E3|]. cbn [Nat.eqb].
  destruct (quarter_row m1 0) as (v2 & u2 & Ev2 & Hv2 & _).
  { unfold m1, dg_uvw. rewrite rotate_frame by lia. reflexivity. }
  { unfold m1, dg_uvw. cbn [quarter image_centre phase_centre fst snd]. apply quarter_first; reflexivity. }
  specialize (Hv2 eq_refl). destruct (serial_run 3 1 quarter (fun _ => 1%R) (fun _ => 0) dot_grid P uvw_rotate (convolve_gather unpacked_index) both eq_refl eq_refl 1 m1) as (s2 & Es2 & Hs2 & _); [intros; apply RO|].
  pose proof (degridder_join 1 m1 1 3 dot_grid 1 (fun _ => 1%R) (fun _ => 0) quarter P uvw_rotate 2 both (convolve_gather unpacked_index) 1 s2 eq_refl eq_refl eq_refl eq_refl eq_refl eq_refl ltac:(lia) Es2) as E4.
  rewrite Ev2 in E4. injection E4 as -> _. specialize (Hs2 0 ltac:(lia)). unfold row_out in Hs2. rewrite R0 in Hs2. cbn [bind] in Hs2.
  match type of Hs2 with Ok ?a = Ok ?b => assert (G : a = b) by congruence; rewrite G end. rewrite <- Hw1, Hv1. intros A. apply Hv2. now symmetry.
Qed.
