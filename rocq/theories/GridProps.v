(* C65 (taps) and C66: placing a visibility on a grid and reading it off *)
From Coq Require Import String Reals Lra.
From Verif Require Import Prelude CRing CplxR StokesGridModel StokesGridSpec StokesGridProofs KernModel KernSpec KernProofs GridModel GridSpec GridProofs GridProofs2.
Close Scope R_scope.
Open Scope nat_scope.

(* every placement is determined: one nearest cell and one number of samples, at most half the oversampling *)
Theorem C65_placement : forall os npix s, exists d f, placed os (position npix s) d f /\ (2 * Z.abs f <= Z.of_nat os)%Z /\
  forall d' f', placed os (position npix s) d' f' -> d' = d /\ f' = f.
Proof.
  intros os npix s. exists (discrete npix s), (fraction npix s os). pose proof (model_placed npix s os) as P. split; [exact P|]. split; [exact (placed_bound _ _ _ _ P)|].
  intros d' f' P'. eapply placed_unique; eauto.
Qed.
Print Assumptions C65_placement.
(* the sample used for a cell is the kernel at the distance of the cell from the position, to within one sample *)
Theorem C65_tap_position : forall W os x d f t, W mod 2 = 1 -> 0 < os -> placed os x d f -> t < W ->
  (Rabs (sample_position W os (Z.to_nat (Z.of_nat os * (Z.of_nat t + 1) + f)) - (IZR (d + Z.of_nat t - Z.of_nat (W / 2)) - x)) < / INR os)%R.
Proof. exact tap_position. Qed.
Print Assumptions C65_tap_position.
(* with a packed kernel the packed policies do what the unpacked ones do with the kernel itself *)
Theorem C65_packed_scatter : forall junk K pk W os su sv npix grid vis f, 0 < os -> pack_kernel junk K (os * (W + 2)) W os = Ok pk ->
  convolve_scatter packed_index su sv npix grid vis f (kernel_of pk W os) = convolve_scatter unpacked_index su sv npix grid vis f (kernel_of K W os).
Proof. exact packed_scatter. Qed.
Print Assumptions C65_packed_scatter.
Theorem C65_packed_gather : forall junk K pk W os su sv npix grid vis f, 0 < os -> pack_kernel junk K (os * (W + 2)) W os = Ok pk ->
  convolve_gather packed_index su sv npix grid vis f (kernel_of pk W os) = convolve_gather unpacked_index su sv npix grid vis f (kernel_of K W os).
Proof. exact packed_gather. Qed.
Print Assumptions C65_packed_gather.

(* gridding one visibility: every cell inside the grid gets it times the kernel, nothing else is touched and nothing outside is
   read; the weight counts all taps, also those falling outside *)
Theorem C66_scatter : forall K W os npix su sv du fu dv fv, W mod 2 = 1 -> 0 < os ->
  placed os (position npix su) du fu -> placed os (position npix sv) dv fv -> forall grid vis to_stokes,
  exists g' cw, convolve_scatter unpacked_index su sv npix grid vis to_stokes (kernel_of K W os) = Ok (g', cw) /\
    (forall y x, y < npix -> x < npix -> g' y x = cadd (grid y x) (cmul (ofR (tap K W os dv fv y * tap K W os du fu x)%R) (to_stokes vis))) /\
    (forall y x, npix <= y \/ npix <= x -> g' y x = grid y x) /\
    cw = (all_taps K W os fv * all_taps K W os fu)%R.
Proof. exact scatter_value. Qed.
Print Assumptions C66_scatter.
(* degridding one visibility: the cells under the kernel, divided by the taps inside the grid *)
Theorem C66_gather : forall l s to_corr K W os npix su sv du fu dv fv, In l layouts -> contains l s -> stokes2corr_impl (to_name l s) = Ok to_corr ->
  W mod 2 = 1 -> 0 < os -> placed os (position npix su) du fu -> placed os (position npix sv) dv fv -> forall grid,
  exists v, convolve_gather unpacked_index su sv npix grid (fun _ => c0) to_corr (kernel_of K W os) = Ok v /\
    (forall k, k < List.length l -> v k = cmul (cmul (coeff (nth k l XX) s) (under_kernel K W os npix du fu dv fv grid))
       (ofR (/ (taps_inside K W os npix dv fv * taps_inside K W os npix du fu + 1 / 100000000))%R)) /\
    forall k, List.length l <= k -> v k = c0.
Proof. exact gather_layout. Qed.
Print Assumptions C66_gather.
(* a grid of equal cells degrids to the cell, times the coefficient, up to the regularisation of the weight *)
Theorem C66_constant : forall K W os npix du fu dv fv z,
  under_kernel K W os npix du fu dv fv (fun _ _ => z) = cmul (ofR (taps_inside K W os npix dv fv * taps_inside K W os npix du fu)%R) z.
Proof. exact constant_grid. Qed.
Print Assumptions C66_constant.
(* the two are adjoint up to that weight, for the same Stokes parameter and layout *)
Theorem C66_adjoint : forall l s ncorr to_stokes to_corr K W os npix su sv du fu dv fv, In l layouts -> contains l s -> List.length l <= ncorr ->
  corr2stokes (from_name s l) ncorr = Ok to_stokes -> stokes2corr_impl (to_name l s) = Ok to_corr ->
  W mod 2 = 1 -> 0 < os -> placed os (position npix su) du fu -> placed os (position npix sv) dv fv -> forall vis G,
  let weight := (taps_inside K W os npix dv fv * taps_inside K W os npix du fu + 1 / 100000000)%R in weight <> 0%R ->
  exists g cw v, convolve_scatter unpacked_index su sv npix (fun _ _ => c0) vis to_stokes (kernel_of K W os) = Ok (g, cw) /\
    convolve_gather unpacked_index su sv npix G (fun _ => c0) to_corr (kernel_of K W os) = Ok v /\
    over_grid npix (fun y x => cmul (g y x) (cconj (G y x))) = cmul (ofR (weight / 2)%R) (csum (List.length l) (fun k => cmul (vis k) (cconj (v k)))).
Proof. exact adjoint_layout. Qed.
Print Assumptions C66_adjoint.
(* nearest-neighbour gridding puts the visibility in one cell of the grid when that cell exists ... *)
Theorem C66_nearest : forall su sv npix grid vis to_stokes du dv, nearest (position npix su) du -> nearest (position npix sv) dv ->
  (0 <= du < Z.of_nat npix)%Z -> (0 <= dv < Z.of_nat npix)%Z ->
  exists g', convolve_nn_scatter su sv npix grid vis to_stokes = Ok (g', 1%R) /\
    forall y x, g' y x = if (Z.of_nat y =? dv)%Z && (Z.of_nat x =? du)%Z then cadd (grid y x) (to_stokes vis) else grid y x.
Proof. exact nn_value. Qed.
Print Assumptions C66_nearest.
(* ... but does not check: one to the left of the grid lands on its right edge, one to the right of it outside the memory *)
Theorem C66_nearest_outside_refuted : forall npix to_stokes vis grid, 0 < npix ->
  (exists su g' cw, convolve_nn_scatter su 0 npix grid vis to_stokes = Ok (g', cw) /\ nearest (position npix su) (-1) /\
     g' (npix / 2) (npix - 1) = cadd (grid (npix / 2) (npix - 1)) (to_stokes vis)) /\
  exists su, convolve_nn_scatter su 0 npix grid vis to_stokes = Raise IndexError /\ nearest (position npix su) (Z.of_nat npix).
Proof. exact nn_outside. Qed.
Print Assumptions C66_nearest_outside_refuted.

Example C65_packed_case : exists pk, pack_kernel (fun _ => 0%R) (fun i => INR i) (5 * (3 + 2)) 3 5 = Ok pk.
Proof. destruct (pack_spec (fun _ => 0%R) (fun i => INR i) 3 5) as (pk & E & _). eauto. Qed.
Example C66_placed_case : placed 4 (position 8 (1 / 2)) 4 (-2) /\ placed 4 (position 8 (6 / 10)) 5 1 /\ 3 mod 2 = 1.
Proof.
  assert (P : INR (8 / 2) = 4%R) by (cbn; lra). unfold placed, nearest, truncated, position. rewrite P. cbn [INR]. split; [|split]; [| |reflexivity].
  - split; [right; split; [|reflexivity]; rewrite Rabs_pos_eq; lra|]. split; intros; lra.
  - split; [left; rewrite Rabs_left; lra|]. split; intros; lra.
Qed.
Example C66_adjoint_case : In [RR'; RL; LR; LL] layouts /\ contains [RR'; RL; LR; LL] U /\
  (exists f, corr2stokes (from_name U [RR'; RL; LR; LL]) 4 = Ok f) /\ exists f, stokes2corr_impl (to_name [RR'; RL; LR; LL] U) = Ok f.
Proof.
  split; [cbn; auto 10|]. split; [exists RL; split; [cbn; auto|discriminate]|]. split; eexists; reflexivity.
Qed.
Example C66_nearest_case : nearest (position 8 (6 / 10)) 5.
Proof. assert (P : INR (8 / 2) = 4%R) by (cbn; lra). unfold nearest, position. rewrite P. left. rewrite Rabs_left; lra. Qed.
