(* Specification vocabulary for C102: the arguments with which predict_vis stands for another route. *)
From Coq Require Import Reals String.
From Verif Require Import Prelude CRing CField CplxR CplxF PredictModel PredictSpec CalModel CalSpec SrcModel.
Open Scope nat_scope.

Section RouteSpec.
  Context {K : cops}.
  (* source coherencies (source, row, chan, corr[, corr]) *)
  Definition coherencies (full : bool) (nsrc nrow nchan ncorr : nat) (X : nat -> nat -> nat -> jones K) : coh_arr K :=
    {| h_ndim := if full then 5 else 4; h_src := nsrc; h_row := nrow; h_chan := nchan; h_corr := ncorr; h_at := X |}.
  (* direction-dependent terms (source, time, antenna, chan, corr[, corr]) *)
  Definition dde_terms (full : bool) (nsrc nchan ncorr : nat) (E : nat -> nat -> nat -> nat -> jones K) : dde_arr K :=
    {| d_ndim := if full then 6 else 5; d_src := nsrc; d_chan := nchan; d_corr := ncorr; d_at := E |}.
  (* direction-independent terms (time, antenna, chan, corr[, corr]) *)
  Definition die_terms (full : bool) (nchan ncorr : nat) (G : nat -> nat -> nat -> jones K) : die_arr K :=
    {| g_ndim := if full then 5 else 4; g_chan := nchan; g_corr := ncorr; g_at := G |}.
  Definition base (full : bool) (nrow nchan ncorr : nat) (B : nat -> nat -> jones K) : vis_arr K :=
    {| v_ndim := if full then 4 else 3; v_row := nrow; v_chan := nchan; v_corr := ncorr; v_at := B |}.
  (* predict_vis(time, ant1, ant2, source_coh=x) *)
  Definition sources_only (nrow : nat) (time : arr Z) (ant1 ant2 : arr nat) (x : coh_arr K) : predict_in K :=
    {| p_nrow := nrow; p_time := time; p_ant1 := ant1; p_ant2 := ant2; p_dde1 := None; p_coh := Some x; p_dde2 := None;
       p_die1 := None; p_bvis := None; p_die2 := None |}.
  (* predict_vis(time, ant1, ant2, dde1_jones=e, source_coh=x, dde2_jones=e) *)
  Definition sources_seen (nrow : nat) (time : arr Z) (ant1 ant2 : arr nat) (e : dde_arr K) (x : coh_arr K) : predict_in K :=
    {| p_nrow := nrow; p_time := time; p_ant1 := ant1; p_ant2 := ant2; p_dde1 := Some e; p_coh := Some x; p_dde2 := Some e;
       p_die1 := None; p_bvis := None; p_die2 := None |}.
  (* predict_vis(time, ant1, ant2, die1_jones=g, base_vis=b, die2_jones=g) *)
  Definition base_gained (nrow : nat) (time : arr Z) (ant1 ant2 : arr nat) (g : die_arr K) (b : vis_arr K) : predict_in K :=
    {| p_nrow := nrow; p_time := time; p_ant1 := ant1; p_ant2 := ant2; p_dde1 := None; p_coh := None; p_dde2 := None;
       p_die1 := Some g; p_bvis := Some b; p_die2 := Some g |}.
End RouteSpec.

(* The rows of time bin t carry the time index t, up to a common offset: every row is in a bin, and the first
   bin has a row. *)
Record indexed_bins (nrow n : nat) (tbi : arr Z) (tmin : Z) (tbc : arr nat) (time : arr Z) (t0 : Z) : Prop := {
  ib_row : forall r, r < nrow -> exists t, t < n /\ in_bin tbi tmin tbc t r /\ time r = (t0 + Z.of_nat t)%Z;
  ib_first : exists r, r < nrow /\ time r = t0
}.

(* the gains of a solution as antenna terms: the diagonal ones of a 2x2 problem are placed on the diagonal *)
Definition gain_matrix {F : fops} (mode : cmode) (a : jones F) : jones F := match mode with DIAG => jdiag a | _ => a end.

(* scalars and coherencies with one value per correlation *)
Definition per_corr {K : cops} (x : nat -> K) : jones K := fun c _ => x c.
(* an unpolarised 2x2 coherency *)
Definition unpolarised {K : cops} (I : K) : jones K := fun i j => if Nat.eqb i j then I else c0.
