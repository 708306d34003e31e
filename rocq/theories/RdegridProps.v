(* C128: rounding errors of degridding *)
From Coq Require Import String Reals Lra Lia.
From Verif Require Import Prelude CRing CplxR DftSpec StokesGridModel StokesGridSpec StokesGridProofs KernModel GridModel GridSpec GridProofs2 RoundModel RoundSpec RoundProofs4 RgridSpec RgridProofs2 RdegridModel RdegridSpec RdegridProofs.
Close Scope string_scope.
Close Scope R_scope.
Open Scope nat_scope.

(* Without rounding these are the gather policies of C66. *)
Theorem C128_exact : forall l s to_corr index su sv npix grid k, In l layouts -> contains l s -> stokes2corr_impl (to_name l s) = Ok to_corr ->
  gather_rounded (fun x => x) index (1 / 100000000)%R su sv npix grid to_corr k = convolve_gather index su sv npix grid (fun _ => c0) to_corr k.
Proof. exact gather_exact. Qed.
(* A degridded visibility, against the exact one of C66: the error is a multiple of the weighted mean size of the cells under
   the kernel.  It depends on the support of the kernel, not on the sizes of grid and data. *)
Theorem C128_gather : forall fl u l s to_corr K W os npix su sv du fu dv fv, roundoff fl u ->
  In l layouts -> contains l s -> stokes2corr_impl (to_name l s) = Ok to_corr ->
  W mod 2 = 1 -> 0 < os -> placed os (position npix su) du fu -> placed os (position npix sv) dv fv -> (forall i, (0 <= K i)%R) ->
  let e := gamma u (W * W + 3) in (e < 1)%R -> forall grid,
  exists v v', convolve_gather unpacked_index su sv npix grid (fun _ => c0) to_corr (kernel_of K W os) = Ok v /\
    gather_rounded fl unpacked_index (fl (1 / 100000000)%R) su sv npix grid to_corr (kernel_of K W os) = Ok v' /\
    forall k part, k < List.length l -> part = fst \/ part = snd ->
      (Rabs (part (v' k) - part (v k)) <= quotient_error u e *
        (kernel_sum K W os npix du fu dv fv (fun y x => size (grid y x)) / (taps_inside K W os npix dv fv * taps_inside K W os npix du fu + 1 / 100000000)))%R.
Proof.
  intros fl u l s to_corr K W os npix su sv du fu dv fv Hu Hl Hs Hc HW Ho Pu Pv HK e He grid.
  destruct (gather_layout l s to_corr K W os npix su sv du fu dv fv Hl Hs Hc HW Ho Pu Pv grid) as (v & Ev & Hv & _).
  destruct (to_correlations l s Hl Hs) as (f & Ef & _ & _ & Hf). rewrite Hc in Ef. injection Ef as <-.
  destruct (gather_near fl u Hu K HK W os npix su sv du fu dv fv HW Ho Pu Pv grid to_corr (List.length l) (fun k => coeff (nth k l XX) s)) as (v' & Ev' & Hv'); [| |exact He|].
  - intros k _. apply coeff_unit.
  - intros x out k Hk. rewrite Hf. destruct (Nat.ltb_spec k (List.length l)); [reflexivity|lia].
  - exists v, v'. split; [exact Ev|]. split; [exact Ev'|]. intros k part Hk Hp. rewrite (Hv k Hk), (under_part part) by exact Hp. exact (Hv' k part Hk Hp).
Qed.
(* Packed and unpacked kernels give the same rounded numbers. *)
Theorem C128_packed : forall fl eps junk K pk W os su sv npix grid to_corr, 0 < os -> pack_kernel junk K (os * (W + 2)) W os = Ok pk ->
  gather_rounded fl packed_index eps su sv npix grid to_corr (kernel_of pk W os) = gather_rounded fl unpacked_index eps su sv npix grid to_corr (kernel_of K W os).
Proof. exact gather_packed. Qed.
(* In double precision, for kernels of up to 63 cells: eleven digits of the largest cell, in every correlation. *)
Theorem C128_double : forall l s to_corr K W os npix su sv, In l layouts -> contains l s -> stokes2corr_impl (to_name l s) = Ok to_corr ->
  W mod 2 = 1 -> W <= 63 -> 0 < os -> (forall i, (0 <= K i)%R) -> forall grid m, (forall y x, y < npix -> x < npix -> (size (grid y x) <= m)%R) -> (0 <= m)%R ->
  exists v v', convolve_gather unpacked_index su sv npix grid (fun _ => c0) to_corr (kernel_of K W os) = Ok v /\
    gather_rounded (RoundModel.nearest 53) unpacked_index (RoundModel.nearest 53 (1 / 100000000)%R) su sv npix grid to_corr (kernel_of K W os) = Ok v' /\
    forall k part, k < List.length l -> part = fst \/ part = snd -> (Rabs (part (v' k) - part (v k)) <= / 10 ^ 11 * m)%R.
Proof.
  intros l s to_corr K W os npix su sv Hl Hs Hc HW Hw Ho HK grid m Hm Pm. destruct (double_gather W Hw) as (G & Q).
  destruct (C128_gather _ _ l s to_corr K W os npix su sv _ _ _ _ nearest_53 Hl Hs Hc HW Ho (GridProofs.model_placed npix su os) (GridProofs.model_placed npix sv os) HK G grid) as (v & v' & E & E' & H).
  exists v, v'. split; [exact E|]. split; [exact E'|]. intros k part Hk Hp. eapply Rle_trans; [exact (H k part Hk Hp)|].
  eapply Rle_trans; [|apply Rmult_le_compat_r; [exact Pm|exact Q]]. apply Rmult_le_compat_l.
  - assert (G0 : (0 <= gamma (/ 2 ^ 53) (W * W + 3))%R) by apply (RavgProofs.gamma_pos _ _ nearest_53). unfold quotient_error.
    assert (0 <= 2 * gamma (/ 2 ^ 53) (W * W + 3) / (1 - gamma (/ 2 ^ 53) (W * W + 3)))%R by (apply Rmult_le_pos; [lra|apply Rlt_le, Rinv_0_lt_compat; lra]).
    assert (0 < / 2 ^ 53)%R by (apply Rinv_0_lt_compat; lra). nra.
  - now apply (kernel_max K W os npix _ _ _ _ (fun y x => size (grid y x)) m HK Pm).
Qed.

(* The hypotheses are met: Stokes I from a grid of 5 by 5 ones into two correlations, with three taps. *)
Example degrid_here : exists to_corr v v', stokes2corr_impl "XXYY_FROM_I" = Ok to_corr /\
  convolve_gather unpacked_index 0 0 5 (fun _ _ => (1, 0)%R) (fun _ => c0) to_corr (kernel_of (fun _ => 1%R) 3 4) = Ok v /\
  gather_rounded (RoundModel.nearest 53) unpacked_index (RoundModel.nearest 53 (1 / 100000000)%R) 0 0 5 (fun _ _ => (1, 0)%R) to_corr (kernel_of (fun _ => 1%R) 3 4) = Ok v' /\
  (Rabs (fst (v' 1%nat) - fst (v 1%nat)) <= / 10 ^ 11)%R.
Proof.
  destruct (to_correlations [XX; YY] I) as (f & Ef & _); [now left|exists XX; split; [now left|discriminate]|].
  destruct (C128_double [XX; YY] I f (fun _ => 1%R) 3 4 5 0 0) with (grid := fun _ _ : nat => (1, 0)%R : RC) (m := 1%R) as (v & v' & E & E' & H);
    [now left|exists XX; split; [now left|discriminate]|exact Ef|reflexivity|lia|lia|intros; lra| |lra|].
  - intros y x _ _. unfold size. cbn. rewrite Rabs_R1, Rabs_R0. lra.
  - exists f, v, v'. split; [exact Ef|]. split; [exact E|]. split; [exact E'|]. pose proof (H 1 fst ltac:(cbn; lia) (or_introl eq_refl)) as Q. lra.
Qed.
Print Assumptions C128_exact. Print Assumptions C128_gather. Print Assumptions C128_packed. Print Assumptions C128_double.
