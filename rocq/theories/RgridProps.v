(* C127: rounding errors of gridding *)
From Coq Require Import String Reals Lra Lia.
From Verif Require Import Prelude CRing CplxR DftSpec StokesGridModel FacetModel KernModel GridModel GridSpec GridProofs5 RoundModel RoundSpec RoundProofs4 RavgProofs RhogProofs3 RgridModel RgridSpec RgridProofs RgridProofs2.
Close Scope string_scope.
Close Scope R_scope.
Open Scope nat_scope.

(* Without rounding these are the convolution policies of C65 and C66; packed and unpacked kernels give the same rounded numbers. *)
Theorem C127_exact : (forall index su sv npix grid vis to_stokes k,
    scatter_rounded (fun x => x) index su sv npix grid (to_stokes vis) k = convolve_scatter index su sv npix grid vis to_stokes k) /\
  forall fl junk K pk W os su sv npix grid s, 0 < os -> pack_kernel junk K (os * (W + 2)) W os = Ok pk ->
    scatter_rounded fl packed_index su sv npix grid s (kernel_of pk W os) = scatter_rounded fl unpacked_index su sv npix grid s (kernel_of K W os).
Proof. exact (conj scatter_exact scatter_packed). Qed.

(* Every cell and every weight, for any kernel: relative to the sum of the sizes of what is added up. *)
Theorem C127_stack : forall fl u K W os npix nrow nchan cm su sv du fu dv fv s, roundoff fl u -> W mod 2 = 1 -> 0 < os ->
  all_placed os npix nrow nchan su du fu -> all_placed os npix nrow nchan sv dv fv ->
  exists G w, stack_rounded fl unpacked_index nrow nchan cm su sv npix s (kernel_of K W os) = Ok (G, w) /\ forall b,
    (forall part y x, part = fst \/ part = snd -> y < npix -> x < npix ->
      (Rabs (part (G b y x) - cell_sum K W os nrow nchan cm du fu dv fv (parts part s) b y x) <=
       gamma u (nrow * nchan + 2) * cell_sum (positive K) W os nrow nchan cm du fu dv fv (sizes_of (parts part s)) b y x)%R) /\
    (Rabs (w b - weight_sum K W os nrow nchan cm fu fv b) <= gamma u (nrow * nchan + W * W + 1) * weight_sum (positive K) W os nrow nchan cm fu fv b)%R.
Proof.
  intros fl u K W os npix nrow nchan cm su sv du fu dv fv s Hu HW Ho Pu Pv.
  destruct (stack_value fl u Hu K W os npix nrow nchan cm su sv du fu dv fv HW Ho Pu Pv s) as (G & w & E & H). exists G, w. split; [exact E|].
  intros b. destruct (H b) as (H1 & H2). split; [|apply H2]. intros part y x Hp Hy Hx. now apply H1.
Qed.

(* Against the gridder itself (C70): the grids of the exact gridder and of the rounded one at the same coordinates and Stokes
   values.  Kernels are not negative where the grids are divided by their weights. *)
Theorem C127_gridder : forall fl u npix nrow nchan ncorr a wl cm K W os P B S, roundoff fl u ->
  phase_policy (phase a) = Ok P -> baseline_policy (baseline a) = Ok B -> corr2stokes (stokes_conversion a) ncorr = Ok S ->
  convolution a = "conv_1d_axisymmetric_unpacked_scatter"%string -> kern a = kernel_of K W os -> W mod 2 = 1 -> 0 < os ->
  forall uvw vis do_normalize (du fu dv fv : nat -> nat -> Z), 0 < nchan ->
  let uvw' r := B uvw r (fst (phase_centre a)) (snd (phase_centre a)) (fst (image_centre a)) (snd (image_centre a)) in
  let vis' r := P nchan (vis r) uvw r wl (fst (phase_centre a)) (snd (phase_centre a)) (fst (image_centre a)) (snd (image_centre a)) 1%R in
  let su r c := grid_coordinate npix (cell a) (wl c) (uvw' r (comp r 0)) in
  let sv r c := grid_coordinate npix (cell a) (wl c) (uvw' r (comp r 1)) in
  let s r c := S (vis' r c) in
  all_placed os npix nrow nchan su du fu -> all_placed os npix nrow nchan sv dv fv ->
  let e := gamma u (nrow * nchan + W * W + 2) in (do_normalize = true -> (forall i, (0 <= K i)%R) /\ (e < 1)%R) ->
  exists g uv G w, gridder nrow 3 uvw nrow nchan ncorr vis nchan wl nchan cm npix a do_normalize = Ok (g, uv) /\
    stack_rounded fl unpacked_index nrow nchan cm su sv npix s (kernel_of K W os) = Ok (G, w) /\
    forall b part y x, part = fst \/ part = snd -> (exists c, c < nchan /\ b <= cm c) -> y < npix -> x < npix ->
      let all := cell_sum (positive K) W os nrow nchan cm du fu dv fv (sizes_of (parts part s)) b y x in
      (Rabs (part (if do_normalize then normalised fl (fl (1 / 100000000)) (G b) (w b) y x else G b y x) - part (g b y x)) <=
       if do_normalize then quotient_error u e * (all / (weight_sum K W os nrow nchan cm fu fv b + 1 / 100000000)) else gamma u (nrow * nchan + 2) * all)%R.
Proof.
  intros fl u npix nrow nchan ncorr a wl cm K W os P B S Hu HP HB HS Hc Hk HW Ho uvw vis dn du fu dv fv Hn uvw' vis' su sv s Pu Pv e Hd.
  destruct (value npix nrow nchan ncorr a wl cm K W os P B S HP HB HS Hc Hk HW Ho uvw vis dn du fu dv fv Hn Pu Pv) as (g & gu & gv & Eg & Hg & _).
  exists g, (gu, gv). destruct dn.
  - destruct (Hd eq_refl) as (HK & He).
    destruct (normal_near fl u Hu K W os npix nrow nchan cm su sv du fu dv fv s HW Ho Pu Pv HK He) as (G & w & E & H).
    exists G, w. split; [exact Eg|]. split; [exact E|]. intros b part y x Hp Hb Hy Hx all. rewrite (Hg b y x Hb Hy Hx).
    rewrite (cell_part part K W os nrow nchan cm du fu dv fv s b y x _ Hp). unfold all.
    replace (cell_sum (positive K) W os nrow nchan cm du fu dv fv (sizes_of (parts part s)) b y x) with (cell_sum K W os nrow nchan cm du fu dv fv (sizes_of (parts part s)) b y x).
    + apply (H b part y x Hp Hy Hx).
    + unfold cell_sum, over_band. apply (csum_ext (K := RR)). intros r _. apply (csum_ext (K := RR)). intros c _. destruct (Nat.eqb (cm c) b); [|reflexivity]. rewrite !tap_positive.
      assert (T : forall d f z, (0 <= tap K W os d f z)%R) by (intros; unfold tap; destruct (_ <=? _)%Z; [apply HK|lra]). now rewrite !Rabs_pos_eq by apply T.
  - destruct (C127_stack fl u K W os npix nrow nchan cm su sv du fu dv fv s Hu HW Ho Pu Pv) as (G & w & E & H).
    exists G, w. split; [exact Eg|]. split; [exact E|]. intros b part y x Hp Hb Hy Hx all.
    assert (C : part (g b y x) = cell_sum K W os nrow nchan cm du fu dv fv (parts part s) b y x).
    { pose proof (cell_part part K W os nrow nchan cm du fu dv fv s b y x 1 Hp) as C. rewrite Rmult_1_r in C. rewrite (Hg b y x Hb Hy Hx). exact C. }
    rewrite C. now apply (H b).
Qed.

(* In numbers, for double precision: a normalised grid of up to two thousand million visibilities is right to six digits of
   the weighted mean of the sizes. *)
Theorem C127_double : forall k, (INR k <= 2000000000)%R ->
  roundoff (RoundModel.nearest 53) (/ 2 ^ 53) /\ (gamma (/ 2 ^ 53) k < 1)%R /\ (quotient_error (/ 2 ^ 53) (gamma (/ 2 ^ 53) k) <= / 10 ^ 6)%R.
Proof. intros k Hk. exact (conj nearest_53 (double_quotient k Hk)). Qed.

(* The grid depends on the order of the rows, and an error that is small relative to the cell itself cannot be had: here the
   exact cell is 2^-60 in both orders. *)
Theorem C127_order_refuted : exists G w G' w',
  stack_rounded (RoundModel.nearest 53) unpacked_index 3 1 (fun _ => 0) (fun _ _ => 0%R) (fun _ _ => 0%R) 1 three one_tap = Ok (G, w) /\
  stack_rounded (RoundModel.nearest 53) unpacked_index 3 1 (fun _ => 0) (fun _ _ => 0%R) (fun _ _ => 0%R) 1 (fun r => three (swap r)) one_tap = Ok (G', w') /\
  fst (G 0 0 0) = 0%R /\ fst (G' 0 0 0) = tiny /\
  cell_sum (fun _ => 1%R) 1 1 3 1 (fun _ => 0) (fun _ _ => 0%Z) (fun _ _ => 0%Z) (fun _ _ => 0%Z) (fun _ _ => 0%Z) (parts fst three) 0 0 0 = tiny.
Proof.
  destruct order as (G & w & G' & w' & E & E' & H & H'). exists G, w, G', w'. repeat split; auto.
  unfold cell_sum, over_band, parts. cbn. unfold tap. cbn. ring.
Qed.

(* The hypotheses are met: three visibilities in the middle of a grid of one cell. *)
Example placed_here : all_placed 1 1 3 1 (fun _ _ => 0%R) (fun _ _ => 0%Z) (fun _ _ => 0%Z).
Proof. intros r c _ _. exact middle. Qed.
Example stack_here : exists G w, stack_rounded (RoundModel.nearest 53) unpacked_index 3 1 (fun _ => 0) (fun _ _ => 0%R) (fun _ _ => 0%R) 1 three one_tap = Ok (G, w) /\
  (Rabs (w 0%nat - 3) <= / 10 ^ 6)%R.
Proof.
  destruct (C127_stack _ _ (fun _ => 1%R) 1 1 1 3 1 (fun _ => 0) _ _ _ _ _ _ three nearest_53 eq_refl ltac:(lia) placed_here placed_here) as (G & w & E & H).
  exists G, w. split; [exact E|]. destruct (H 0) as (_ & Hw).
  assert (E1 : weight_sum (fun _ => 1%R) 1 1 3 1 (fun _ => 0) (fun _ _ => 0%Z) (fun _ _ => 0%Z) 0 = 3%R) by (unfold weight_sum, over_band, all_taps; cbn; ring).
  assert (E2 : weight_sum (positive (fun _ => 1%R)) 1 1 3 1 (fun _ => 0) (fun _ _ => 0%Z) (fun _ _ => 0%Z) 0 = 3%R) by (unfold weight_sum, over_band, all_taps, positive; cbn; rewrite Rabs_R1; ring).
  rewrite E1, E2 in Hw. eapply Rle_trans; [exact Hw|].
  assert (B : (gamma (/ 2 ^ 53) (3 * 1 + 1 * 1 + 1) <= / 10 ^ 7)%R); [|lra].
  eapply Rle_trans; [apply gamma_bound; cbn [INR Nat.mul Nat.add]; lra|]. cbn [INR Nat.mul Nat.add]. lra.
Qed.
Print Assumptions C127_exact. Print Assumptions C127_stack. Print Assumptions C127_gridder. Print Assumptions C127_double. Print Assumptions C127_order_refuted.
