(* Specification vocabulary for C119: how well the gains explain the data *)
From Coq Require Import Reals.
From Verif Require Import Prelude CRing CField CplxR CplxF DftSpec NumpyModel AvgModel PredictModel PredictSpec CalModel CalSpec RimeSpec Cal2Model Cal2Spec.
Open Scope R_scope.
Open Scope K_scope.

(* the sum of |residual|^2 over the unflagged rows of time bin t, in channel f and correlation c *)
Definition chi2 (tbi : arr Z) (tmin : Z) (tbc ant1 ant2 : arr nat) (ndir : nat) (use : nat -> nat -> bool)
    (M : nat -> nat -> nat -> nat -> RC) (D : nat -> nat -> nat -> RC) (G : garr RC) (t f c : nat) : R :=
  bin_sum (K := RR) tbi tmin tbc t (fun r => if use r f then norm2 (residuals ant1 ant2 ndir M D G t r f c) else 0%R).
(* and over all bins, channels and correlations *)
Definition misfit (n nchan ncorr : nat) (tbi : arr Z) (tmin : Z) (tbc ant1 ant2 : arr nat) (ndir : nat) (use : nat -> nat -> bool)
    (M : nat -> nat -> nat -> nat -> RC) (D : nat -> nat -> nat -> RC) (G : garr RC) : R :=
  rsum n (fun t => rsum nchan (fun f => rsum ncorr (fun c => chi2 tbi tmin tbc ant1 ant2 ndir use M D G t f c))).
(* every gain is a pure phase *)
Definition pure_phases (n nchan ndir ncorr : nat) (G : garr RC) : Prop :=
  forall t a f s c, (t < n)%nat -> (f < nchan)%nat -> (s < ndir)%nat -> (c < ncorr)%nat -> norm2 (G t a f s c 0%nat) = 1%R.
(* the antennas of the rows of the bins are among the first nant *)
Definition antennas_in (nant n : nat) (tbi : arr Z) (tmin : Z) (tbc ant1 ant2 : arr nat) : Prop :=
  forall t r, (t < n)%nat -> in_bin tbi tmin tbc t r -> (ant1 r < nant)%nat /\ (ant2 r < nant)%nat.
(* on unflagged rows the data are at most as large as the model *)
Definition data_within_model (n nchan ncorr : nat) (tbi : arr Z) (tmin : Z) (tbc : arr nat) (use : nat -> nat -> bool)
    (M : nat -> nat -> nat -> nat -> RC) (D : nat -> nat -> nat -> RC) : Prop :=
  forall t r f c, (t < n)%nat -> in_bin tbi tmin tbc t r -> (f < nchan)%nat -> (c < ncorr)%nat -> use r f = true -> norm2 (D r f c) <= norm2 (M r f 0%nat c).
(* inputs of gauss_newton that fit together: ndir directions, data, model and gains diagonal or scalar Jones matrices,
   use tells which rows and channels are not flagged *)
Record solver_inputs (n nant ncorr nchan ndir : nat) (tbi : arr Z) (tbc ant1 ant2 : arr nat) (g : gain_arr RCF) (vis : vis_arr RCF)
    (m : model_arr RCF) (flag : nat -> nat -> arr2 bool) (tmin : Z) (use : nat -> nat -> bool) : Prop := {
  si_n : (0 < n)%nat;
  si_min : is_min n tbi tmin;
  si_bins : bins_disjoint n tbi tmin tbc;
  si_use : forall r f, use r f = true <-> ~ flagged false ncorr (flag r f);
  si_vcorr : v_corr vis = ncorr;
  si_mcorr : m_corr m = ncorr;
  si_vchan : v_chan vis = nchan;
  si_mdir : m_dir m = ndir;
  si_model : check_type (j_ndim g) (m_ndim m) VT_model = Ok DIAG_DIAG;
  si_vis : check_type (j_ndim g) (v_ndim vis) VT_vis = Ok DIAG_DIAG;
  si_tim : j_tim g = n;
  si_chan : j_chan g = nchan;
  si_dir : j_dir g = ndir;
  si_ants : antennas_in nant n tbi tmin tbc ant1 ant2;
  si_phases : pure_phases n nchan ndir ncorr (j_at g)
}.
