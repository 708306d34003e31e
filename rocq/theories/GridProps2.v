(* C70 and C71: gridding and degridding all rows *)
From Coq Require Import String Reals Lra Permutation.
From Verif Require Import Prelude CRing CplxR StokesGridModel StokesGridSpec FacetModel GridModel GridSpec GridProofs GridProofs2 GridProofs4 GridProofs5 GridProofs6 GridProofs7.
Close Scope R_scope.
Open Scope nat_scope.

(* what is in the grid: for every cell, the sum over rows and channels of the band of the kernel at the cell times the Stokes
   parameter of the visibility, rotated in phase, at the transformed baseline; on request divided by the sum of all kernel
   weights of the band.  uvw and vis are left transformed. *)
Theorem C70_value : forall npix nrow nchan ncorr a wl cm K W os P B S,
  phase_policy (phase a) = Ok P -> baseline_policy (baseline a) = Ok B -> corr2stokes (stokes_conversion a) ncorr = Ok S ->
  convolution a = "conv_1d_axisymmetric_unpacked_scatter"%string -> kern a = kernel_of K W os -> W mod 2 = 1 -> 0 < os ->
  forall uvw vis do_normalize (du fu dv fv : nat -> nat -> Z), 0 < nchan ->
  let uvw' r := B uvw r (fst (phase_centre a)) (snd (phase_centre a)) (fst (image_centre a)) (snd (image_centre a)) in
  let vis' r := P nchan (vis r) uvw r wl (fst (phase_centre a)) (snd (phase_centre a)) (fst (image_centre a)) (snd (image_centre a)) 1%R in
  (forall r c, r < nrow -> c < nchan -> placed os (position npix (grid_coordinate npix (cell a) (wl c) (uvw' r (comp r 0)))) (du r c) (fu r c)) ->
  (forall r c, r < nrow -> c < nchan -> placed os (position npix (grid_coordinate npix (cell a) (wl c) (uvw' r (comp r 1)))) (dv r c) (fv r c)) ->
  exists g u v, gridder nrow 3 uvw nrow nchan ncorr vis nchan wl nchan cm npix a do_normalize = Ok (g, (u, v)) /\
    (forall b y x, (exists c, c < nchan /\ b <= cm c) -> y < npix -> x < npix ->
       g b y x = cmul (over_band nrow nchan cm b (fun r c => cmul (ofR (tap K W os (dv r c) (fv r c) y * tap K W os (du r c) (fu r c) x)%R) (S (vis' r c))))
                      (if do_normalize then ofR (/ (over_band (K := RR) nrow nchan cm b (fun r c => (all_taps K W os (fv r c) * all_taps K W os (fu r c))%R) + 1 / 100000000))%R else c1)) /\
    (forall r i, r < nrow -> i < 3 -> u (comp r i) = uvw' r (comp r i)) /\ (forall r, r < nrow -> v r = vis' r).
Proof. exact value. Qed.
Print Assumptions C70_value.
(* linear in the visibilities, with any policies, normalised or not *)
Theorem C70_linear : forall nrow uvw v w u ncorr nchan wl cm npix a do_normalize x1 x2 gu, (forall r c k, u r c k = cadd (cmul x1 (v r c k)) (cmul x2 (w r c k))) ->
  gridder nrow 3 uvw nrow nchan ncorr u nchan wl nchan cm npix a do_normalize = Ok gu ->
  exists gv gw, gridder nrow 3 uvw nrow nchan ncorr v nchan wl nchan cm npix a do_normalize = Ok gv /\ gridder nrow 3 uvw nrow nchan ncorr w nchan wl nchan cm npix a do_normalize = Ok gw /\
    forall b y x, fst gu b y x = cadd (cmul x1 (fst gv b y x)) (cmul x2 (fst gw b y x)).
Proof. exact linear. Qed.
Print Assumptions C70_linear.
(* the grid of n + m rows is the sum of the grids of the first n and of the other m, with any policies *)
Theorem C70_additive : forall n m uvw vis ncorr nchan wl cm npix a g uv,
  gridder (n + m) 3 uvw (n + m) nchan ncorr vis nchan wl nchan cm npix a false = Ok (g, uv) ->
  exists g1 uv1 g2 uv2, gridder n 3 uvw n nchan ncorr vis nchan wl nchan cm npix a false = Ok (g1, uv1) /\
    gridder m 3 (fun q => uvw (3 * n + q)) m nchan ncorr (fun r => vis (n + r)) nchan wl nchan cm npix a false = Ok (g2, uv2) /\
    forall b y x, g b y x = cadd (g1 b y x) (g2 b y x).
Proof. exact additive. Qed.
Print Assumptions C70_additive.
(* shapes are checked *)
Theorem C70_checks : forall nuvw uvwcols uvw nrow nvischan ncorr vis nchan wl nchanmap cm npix a do_normalize s,
  gridder nuvw uvwcols uvw nrow nvischan ncorr vis nchan wl nchanmap cm npix a do_normalize = Ok s ->
  nchanmap = nchan /\ 0 < nchan /\ uvwcols = 3 /\ nuvw = nrow /\ nvischan = nchan.
Proof.
  intros nuvw uvwcols uvw nrow nvischan ncorr vis nchan wl nchanmap cm npix a dn s. unfold gridder.
  destruct (phase_policy (phase a)); [|discriminate]. destruct (baseline_policy (baseline a)); [|discriminate]. destruct (corr2stokes (stokes_conversion a) ncorr); [|discriminate]. destruct (scatter_policy (convolution a)); [|discriminate].
  cbn [bind]. destruct (Nat.eqb_spec nchanmap nchan); [|discriminate]. cbn [negb]. destruct (bands nchan cm) eqn:Eb; [|discriminate]. cbn [bind].
  destruct (Nat.eqb_spec uvwcols 3); [|discriminate]. destruct (Nat.eqb_spec nuvw nrow); [|discriminate]. destruct (Nat.eqb_spec nvischan nchan); [|discriminate]. intros _.
  repeat split; auto. destruct nchan; [discriminate|lia].
Qed.
Print Assumptions C70_checks.
(* several facets: when no policy changes baselines or phases every facet is the grid of the visibilities given ... *)
Theorem C70_facets : forall nrow nchan ncorr uvw vis wl cm npix a do_normalize centres gs, no_policies a ->
  grid_facets nrow nchan ncorr uvw vis wl cm npix a do_normalize centres = Ok gs ->
  Forall2 (fun f g => exists uv, gridder nrow 3 uvw nrow nchan ncorr vis nchan wl nchan cm npix (facet_at a f) do_normalize = Ok (g, uv)) centres gs.
Proof. intros nrow nchan ncorr uvw vis wl cm npix a dn centres gs (Hb & Hp). now apply facets_untouched. Qed.
Print Assumptions C70_facets.
(* ... otherwise a facet starts from what the one before left: the same facet asked for twice gives two grids *)
Theorem C70_second_facet_refuted : exists a uvw vis f g1 g2,
  grid_facets 1 1 2 uvw vis (fun _ => 1%R) (fun _ => 0) 1 a false [f; f] = Ok [g1; g2] /\ g1 0 0 0 <> g2 0 0 0.
Proof.
  destruct second_facet as (g1 & g2 & E & H1 & H2). do 6 eexists. split; [exact E|]. rewrite H1, H2. intros A. injection A as A. lra.
Qed.
Print Assumptions C70_second_facet_refuted.
(* blocks of rows are averaged: the chunked grid is the whole grid divided by the number of blocks ... *)
Theorem C70_chunked_mean : forall rows nchan ncorr uvw vis wl cm npix a f g uv, rows <> [] ->
  gridder (list_sum rows) 3 uvw (list_sum rows) nchan ncorr vis nchan wl nchan cm npix (facet_at a f) false = Ok (g, uv) ->
  exists d, dask_gridder rows [nchan] ncorr uvw vis wl cm npix a false [f] = Ok d /\ forall b y x, cmul (ofR (INR (List.length rows))) (d 0 b y x) = g b y x.
Proof. exact dask_mean. Qed.
Print Assumptions C70_chunked_mean.
(* ... so that it is the whole grid for one block, and for several blocks only where that is zero *)
Theorem C70_chunked_sum_refuted : forall rows nchan ncorr uvw vis wl cm npix a f g uv b y x, 2 <= List.length rows ->
  gridder (list_sum rows) 3 uvw (list_sum rows) nchan ncorr vis nchan wl nchan cm npix (facet_at a f) false = Ok (g, uv) -> g b y x <> c0 ->
  exists d, dask_gridder rows [nchan] ncorr uvw vis wl cm npix a false [f] = Ok d /\ d 0 b y x <> g b y x.
Proof. exact mean_not_sum. Qed.
Print Assumptions C70_chunked_sum_refuted.
(* channels in a second chunk are not gridded *)
Theorem C70_chunked_channels_refuted : exists a uvw vis f g uv d,
  gridder 1 3 uvw 1 2 2 vis 2 (fun _ => 1%R) 2 (fun _ => 0) 1 (facet_at a f) false = Ok (g, uv) /\
  dask_gridder [1] [1; 1] 2 uvw vis (fun _ => 1%R) (fun _ => 0) 1 a false [f] = Ok d /\ d 0 0 0 0 <> g 0 0 0.
Proof.
  destruct later_channels as (g & uv & d & E & Ed & H1 & H2). do 4 eexists. exists g, uv, d. split; [exact E|]. split; [exact Ed|]. rewrite H1, H2. intros A. injection A as A. lra.
Qed.
Print Assumptions C70_chunked_channels_refuted.

(* what is degridded: the cells of the band under the kernel at the transformed baseline, divided by the weight of the taps inside
   the grid, times the coefficient of the Stokes parameter in each correlation, and rotated in phase the other way *)
Theorem C71_value : forall npix nrow nchan a wl cm K W os stack gb l s P B,
  phase_policy (phase a) = Ok P -> baseline_policy (baseline a) = Ok B -> In l layouts -> contains l s -> stokes_conversion a = to_name l s ->
  convolution a = "conv_1d_axisymmetric_unpacked_gather"%string -> kern a = kernel_of K W os -> W mod 2 = 1 -> 0 < os ->
  forall uvw (du fu dv fv : nat -> nat -> Z), 0 < nchan -> (forall c, c < nchan -> cm c < gb) ->
  let uvw' r := B uvw r (fst (image_centre a)) (snd (image_centre a)) (fst (phase_centre a)) (snd (phase_centre a)) in
  (forall r c, r < nrow -> c < nchan -> placed os (position npix (grid_coordinate npix (cell a) (wl c) (uvw' r (comp r 0)))) (du r c) (fu r c)) ->
  (forall r c, r < nrow -> c < nchan -> placed os (position npix (grid_coordinate npix (cell a) (wl c) (uvw' r (comp r 1)))) (dv r c) (fv r c)) ->
  exists v u row, degridder_serial nrow 3 uvw gb npix npix stack nchan wl nchan cm a = Ok (v, u) /\
    (forall r, r < nrow -> v r = P nchan (row r) (uvw' r) r wl (fst (phase_centre a)) (snd (phase_centre a)) (fst (image_centre a)) (snd (image_centre a)) (-1)%R) /\
    (forall r c k, r < nrow -> c < nchan -> k < List.length l -> row r c k = cmul (cmul (coeff (nth k l XX) s) (under_kernel K W os npix (du r c) (fu r c) (dv r c) (fv r c) (stack (cm c))))
       (ofR (/ (taps_inside K W os npix (dv r c) (fv r c) * taps_inside K W os npix (du r c) (fu r c) + 1 / 100000000))%R)) /\
    (forall r i, r < nrow -> i < 3 -> u (comp r i) = uvw' r (comp r i)).
Proof. exact degrid_value. Qed.
Print Assumptions C71_value.
(* a block of rows degrids on its own to what it is in the whole; the rows before and after do not matter (but see below for what
   lies in memory after the block) *)
Theorem C71_row_block : forall r0 n nrow uvwcols uvw gb gy gx stack nchan wl nchanmap cm a v u,
  degridder_serial nrow uvwcols uvw gb gy gx stack nchan wl nchanmap cm a = Ok (v, u) -> r0 + n <= nrow ->
  exists v1 u1, degridder_serial n uvwcols (fun i => uvw (3 * r0 + i)) gb gy gx stack nchan wl nchanmap cm a = Ok (v1, u1) /\ forall r, r < n -> v1 r = v (r0 + r).
Proof. exact row_block. Qed.
Print Assumptions C71_row_block.
(* the parallel loop gives the serial answer in every order of the rows, unless baselines are rotated *)
Theorem C71_any_order : forall order nrow uvwcols uvw gb gy gx stack nchan wl nchanmap cm a, baseline a <> "rotate"%string -> Permutation order (seq 0 nrow) ->
  degridder_ordered order uvwcols uvw gb gy gx stack nchan wl nchanmap cm a = degridder_serial nrow uvwcols uvw gb gy gx stack nchan wl nchanmap cm a.
Proof.
  intros order nrow uvwcols uvw gb gy gx stack nchan wl nchanmap cm a Hb HP. apply any_order; auto. eapply Permutation_NoDup; [apply Permutation_sym; exact HP|apply seq_NoDup].
Qed.
Print Assumptions C71_any_order.
(* rotating a baseline reads the first component of the next row, before or after that is rotated *)
Theorem C71_rotate_order_refuted : exists uvw stack a v u v' u', baseline a = "rotate"%string /\
  degridder_ordered [0; 1] 3 uvw 1 3 3 stack 1 (fun _ => 1%R) 1 (fun _ => 0) a = Ok (v, u) /\
  degridder_ordered [1; 0] 3 uvw 1 3 3 stack 1 (fun _ => 1%R) 1 (fun _ => 0) a = Ok (v', u') /\ v 0 0 0 <> v' 0 0 0.
Proof. destruct two_orders as (v & u & v' & u' & E & E' & H). exists two_rows, dot_grid, quarter, v, u, v', u'. auto. Qed.
Print Assumptions C71_rotate_order_refuted.
(* chunked over rows and channels, for the facets of the first chunk: the sum of the facets, as computed whole *)
Theorem C71_chunked : forall nf later rows chans uvw gb gy gx stack wl cm a v u, no_policies a ->
  (forall f, f < nf -> degridder_serial (list_sum rows) 3 uvw gb gy gx (stack f) (list_sum chans) wl (list_sum chans) cm a = Ok (v f, u f)) ->
  forall r c k, r < list_sum rows -> c < list_sum chans -> dask_degridder (nf :: later) rows chans uvw gb gy gx stack wl cm a r c k = Ok (csum nf (fun f => v f r c k)).
Proof. exact dask_degrid. Qed.
Print Assumptions C71_chunked.

(* one row and one channel in the middle of a grid: the hypotheses can be met *)
Example C70_case : exists g uv, gridder 1 3 straight_up 1 1 2 ones3 1 (fun _ => 1%R) 1 (fun _ => 0) 1 (one_cell None (0, 0)%R) false = Ok (g, uv) /\ g 0 0 0 = c1.
Proof.
  destruct (cell_value 1 None _ (0, 0)%R ones3 ltac:(lia) eq_refl) as (g & v & E & H & _). exists g, (straight_up, v). split; [exact E|]. rewrite H. unfold ones3, half. cbn [csum fst snd]. apply injective_projections; cbn; field.
Qed.
Example C71_case : exists v u, degridder_serial 1 3 (fun _ => 0%R) 1 3 3 dot_grid 1 (fun _ => 1%R) 1 (fun _ => 0) quarter = Ok (v, u) /\ v 0 0 0 <> c0.
Proof. destruct (quarter_row (fun _ => 0%R) 0 eq_refl eq_refl) as (v & u & E & H & _). eauto. Qed.
(* shapes are checked here too: policies are looked up first, then every mismatch is a ValueError *)
Theorem C71_checks : forall order uvwcols uvw gb gy gx stack nchan wl nchanmap cm a,
  (forall s, degridder_ordered order uvwcols uvw gb gy gx stack nchan wl nchanmap cm a = Ok s ->
     nchanmap = nchan /\ 0 < nchan /\ gy = gx /\ (forall c, c < nchan -> cm c < gb) /\ uvwcols = 3) /\
  (forall P B n S G, phase_policy (phase a) = Ok P -> baseline_policy (baseline a) = Ok B -> ncorr_out (stokes_conversion a) = Ok n ->
     stokes2corr_impl (stokes_conversion a) = Ok S -> gather_policy (convolution a) = Ok G ->
     nchanmap <> nchan \/ nchan = 0 \/ gy <> gx \/ (exists c, c < nchan /\ gb <= cm c) \/ uvwcols <> 3 ->
     degridder_ordered order uvwcols uvw gb gy gx stack nchan wl nchanmap cm a = Raise ValueError).
Proof.
  intros order uvwcols uvw gb gy gx stack nchan wl nchanmap cm a.
  assert (BN : (nchan = 0 /\ bands nchan cm = Raise ValueError) \/ 0 < nchan /\ exists nb, bands nchan cm = Ok nb /\ (forall c, c < nchan -> cm c < nb) /\ exists c, c < nchan /\ nb = cm c + 1).
  { destruct nchan as [|n]; [left; split; reflexivity|right; split; [lia|apply bands_max; lia]]. }
  unfold degridder_ordered. split.
  - intros s.
    destruct (phase_policy (phase a)); [|discriminate]. destruct (baseline_policy (baseline a)); [|discriminate]. destruct (ncorr_out (stokes_conversion a)); [|discriminate].
    destruct (stokes2corr_impl (stokes_conversion a)); [|discriminate]. destruct (gather_policy (convolution a)); [|discriminate]. cbn [bind].
    destruct (Nat.eqb_spec nchanmap nchan); [|discriminate]. cbn [negb]. destruct BN as [(Z & ->)|(Z & nb & -> & B & _)]; [discriminate|]. cbn [bind].
    destruct (Nat.eqb_spec gy gx); [|discriminate]. cbn [negb]. destruct (Nat.ltb_spec gb nb); [discriminate|]. destruct (Nat.eqb_spec uvwcols 3); [|discriminate]. intros _.
    repeat apply conj; auto. intros c Hc. specialize (B c Hc). lia.
  - intros P B n S G -> -> -> -> ->. cbn [bind]. intros H.
    destruct (Nat.eqb_spec nchanmap nchan); [|reflexivity]. cbn [negb]. destruct BN as [(Z & ->)|(Z & nb & -> & C & c' & Hc' & En)]; [reflexivity|]. cbn [bind].
    destruct (Nat.eqb_spec gy gx); [|reflexivity]. cbn [negb]. destruct (Nat.ltb_spec gb nb) as [L|L]; [reflexivity|]. destruct (Nat.eqb_spec uvwcols 3); [|reflexivity]. exfalso.
    destruct H as [H|[H|[H|[(c & Hc & H)|H]]]]; try lia. specialize (C c Hc). lia.
Qed.
Example C71_checks_case : exists P B n S G, phase_policy (phase quarter) = Ok P /\ baseline_policy (baseline quarter) = Ok B /\ ncorr_out (stokes_conversion quarter) = Ok n /\
  stokes2corr_impl (stokes_conversion quarter) = Ok S /\ gather_policy (convolution quarter) = Ok G.
Proof. repeat eexists; reflexivity. Qed.
Print Assumptions C71_checks.
