(* C92: the CUDA prediction of visibilities evaluates the measurement equation, for every schedule of its warps *)
From Coq Require Import Reals Lra.
From Verif Require Import Prelude CRing CplxR UtilModel PredictModel PredictSpec PredictProofs CudaPredictModel CudaPredictSpec CudaPredictProofs CudaPredictProofs2 CudaPredictProofs3 CudaPredictProofs4.
Open Scope nat_scope.

(* Correlations (1,), (2,) and (2, 2), any combination of terms other than base visibilities alone: whatever the order of the
   warps, the values of shuffles from threads that have left and the initial contents of the output. *)
Theorem C92_measurement : forall full nsrc nchan ncorr double x order und garbage a,
  shapes full nsrc nchan ncorr a -> (if full then ncorr = 2 else ncorr = 1 \/ ncorr = 2) ->
  paired (p_dde1 a) (p_dde2 a) -> paired (p_die1 a) (p_die2 a) -> more_than_base a -> 0 < p_nrow a ->
  indices_ok x a -> any_schedule double order ->
  exists out, cuda_predict_vis (true, true, true) double x order und garbage a = Ok out /\
    v_ndim out = (if full then 4 else 3) /\ v_row out = p_nrow a /\ v_chan out = nchan /\ v_corr out = ncorr /\
    forall tmin, is_min (p_nrow a) (p_time a) tmin -> forall r f, r < p_nrow a -> f < nchan ->
      jeq full ncorr (v_at out r f) (measurement full (Z.to_nat (p_time a r - tmin)) a r f).
Proof. exact cuda_measurement. Qed.
(* so it agrees with the CPU implementation *)
Theorem C92_same_as_cpu : forall full nsrc nchan ncorr double x order und garbage a,
  shapes full nsrc nchan ncorr a -> (if full then ncorr = 2 else ncorr = 1 \/ ncorr = 2) ->
  paired (p_dde1 a) (p_dde2 a) -> paired (p_die1 a) (p_die2 a) -> more_than_base a -> 0 < p_nrow a ->
  indices_ok x a -> any_schedule double order ->
  exists gpu cpu, cuda_predict_vis (true, true, true) double x order und garbage a = Ok gpu /\ predict_vis a = Ok cpu /\
    v_ndim gpu = v_ndim cpu /\ v_row gpu = v_row cpu /\ v_chan gpu = v_chan cpu /\ v_corr gpu = v_corr cpu /\
    forall r f, r < p_nrow a -> f < nchan -> jeq full ncorr (v_at gpu r f) (v_at cpu r f).
Proof. exact cuda_cpu. Qed.
(* Flat arrays of four correlations are multiplied as matrices ... *)
Theorem C92_flat_four : forall nsrc nchan double x order und garbage a,
  shapes false nsrc nchan 4 a -> paired (p_dde1 a) (p_dde2 a) -> paired (p_die1 a) (p_die2 a) -> more_than_base a -> 0 < p_nrow a ->
  indices_ok x a -> any_schedule double order ->
  exists out, cuda_predict_vis (true, true, true) double x order und garbage a = Ok out /\
    v_ndim out = 3 /\ v_row out = p_nrow a /\ v_chan out = nchan /\ v_corr out = 4 /\
    forall tmin, is_min (p_nrow a) (p_time a) tmin -> forall r f i j, r < p_nrow a -> f < nchan -> i < 2 -> j < 2 ->
      v_at out r f (2 * i + j) 0 = measurement true (Z.to_nat (p_time a r - tmin)) (as_matrices a) r f i j.
Proof. exact cuda_four. Qed.
(* ... which is not what the CPU implementation computes. *)
Theorem C92_flat_four_refuted : exists x a, shapes false 0 1 4 a /\ indices_ok x a /\
  forall double order und garbage, any_schedule double order ->
  exists gpu cpu, cuda_predict_vis (true, true, true) double x order und garbage a = Ok gpu /\ predict_vis a = Ok cpu /\
    v_at gpu 0 0 0 0 <> v_at cpu 0 0 0 0.
Proof. exact four_differs. Qed.
(* Base visibilities alone: the rendered kernel does not compile; the CPU implementation returns them. *)
Theorem C92_base_only_refuted : forall full nchan ncorr double x order und garbage a b,
  shapes full 0 nchan ncorr a -> p_bvis a = Some b -> p_dde1 a = None -> p_dde2 a = None -> p_coh a = None -> p_die1 a = None -> p_die2 a = None -> 0 < p_nrow a ->
  cuda_predict_vis (true, true, true) double x order und garbage a = Raise compile_exn /\
  exists cpu, predict_vis a = Ok cpu /\ forall r f, r < p_nrow a -> f < nchan -> jeq full ncorr (v_at cpu r f) (v_at b r f).
Proof. exact base_only. Qed.
(* Antenna terms with a number of correlations other than 1, 2 and 4, or with matrices larger than 2x2, do not compile. *)
Theorem C92_other_corrs : forall full nsrc nchan ncorr double x order und garbage a,
  shapes full nsrc nchan ncorr a -> (if full then 3 <= ncorr else ncorr <> 1 /\ ncorr <> 2 /\ ncorr <> 4) -> paired (p_dde1 a) (p_dde2 a) -> paired (p_die1 a) (p_die2 a) ->
  p_dde1 a <> None \/ p_die1 a <> None -> 0 < p_nrow a ->
  cuda_predict_vis (true, true, true) double x order und garbage a = Raise compile_exn.
Proof. exact other_corrs. Qed.
(* 1x1 matrices: the measurement equation of their elements. *)
Theorem C92_one_by_one : forall nsrc nchan double x order und garbage a,
  shapes true nsrc nchan 1 a -> paired (p_dde1 a) (p_dde2 a) -> paired (p_die1 a) (p_die2 a) -> more_than_base a -> 0 < p_nrow a ->
  indices_ok x a -> any_schedule double order ->
  exists out, cuda_predict_vis (true, true, true) double x order und garbage a = Ok out /\
    v_ndim out = 4 /\ v_row out = p_nrow a /\ v_chan out = nchan /\ v_corr out = 1 /\
    forall tmin, is_min (p_nrow a) (p_time a) tmin -> forall r f, r < p_nrow a -> f < nchan ->
      v_at out r f 0 0 = measurement false (Z.to_nat (p_time a r - tmin)) a r f 0 0.
Proof. exact cuda_one. Qed.
(* Coherencies without antenna terms are summed over the sources, whatever the number of correlations, and base visibilities added. *)
Theorem C92_sum : forall full nsrc nchan ncorr double x order und garbage a h,
  shapes full nsrc nchan ncorr a -> 0 < ncorr -> p_coh a = Some h -> p_dde1 a = None -> p_dde2 a = None -> p_die1 a = None -> p_die2 a = None -> 0 < p_nrow a ->
  any_schedule double order ->
  exists out, cuda_predict_vis (true, true, true) double x order und garbage a = Ok out /\
    v_ndim out = (if full then 4 else 3) /\ v_row out = p_nrow a /\ v_chan out = nchan /\ v_corr out = ncorr /\
    forall r f i j, r < p_nrow a -> f < nchan -> i < ncorr -> (if full then j < ncorr else j = 0) ->
      v_at out r f i j = cadd (csum nsrc (fun s => h_at h s r f i j)) (match p_bvis a with Some b => v_at b r f i j | None => c0 end).
Proof. exact cuda_sum. Qed.
(* Index arrays of another type than int32 raise TypeError; no input raises ValueError, as do other numbers of correlation
   dimensions. *)
Theorem C92_types : forall full nsrc nchan ncorr t1 t2 t3 double x order und garbage a,
  shapes full nsrc nchan ncorr a -> paired (p_dde1 a) (p_dde2 a) -> paired (p_die1 a) (p_die2 a) -> supplied a ->
  (t1 && t2 && t3)%bool = false ->
  cuda_predict_vis (t1, t2, t3) double x order und garbage a = Raise TypeError.
Proof. exact types_raise. Qed.
Theorem C92_empty : forall types double x order und garbage a, ~ supplied a ->
  cuda_predict_vis types double x order und garbage a = Raise ValueError.
Proof. exact empty_raises. Qed.
Theorem C92_corr_dims : forall types double x order und garbage a n, corr_dims a = Ok n -> n <> 1 -> n <> 2 ->
  cuda_predict_vis types double x order und garbage a = Raise ValueError.
Proof. exact corr_dims_raise. Qed.

Print Assumptions C92_measurement.
Print Assumptions C92_same_as_cpu.
Print Assumptions C92_flat_four.
Print Assumptions C92_flat_four_refuted.
Print Assumptions C92_base_only_refuted.
Print Assumptions C92_other_corrs.
Print Assumptions C92_one_by_one.
Print Assumptions C92_sum.
Print Assumptions C92_types.
Print Assumptions C92_empty.
Print Assumptions C92_corr_dims.

(* 10 channels of 2x2 matrices: 40 elements, so two warps per row, the second one partly outside; rows in reverse order too *)
Example C92_case : exists x a order, shapes true 3 10 2 a /\ paired (p_dde1 a) (p_dde2 a) /\ paired (p_die1 a) (p_die2 a) /\ more_than_base a /\ 0 < p_nrow a /\
  indices_ok x a /\ any_schedule false order /\ order 2 2 <> row_major false 2 2.
Proof. exact case_full. Qed.
(* coherencies of 3x3 matrices, five rows *)
Example C92_sum_case : exists h (a : predict_in RC), shapes true 2 4 3 a /\ p_coh a = Some h /\ p_dde1 a = None /\ p_dde2 a = None /\ p_die1 a = None /\ p_die2 a = None /\ 0 < p_nrow a.
Proof.
  exists {| h_ndim := 5; h_src := 2; h_row := 5; h_chan := 4; h_corr := 3; h_at := fun s r f i j => ((INR (s + r + f + i), INR j) : RC) |}.
  exists {| p_nrow := 5; p_time := fun r => Z.of_nat r; p_ant1 := fun _ => 0; p_ant2 := fun _ => 1; p_dde1 := None;
    p_coh := Some {| h_ndim := 5; h_src := 2; h_row := 5; h_chan := 4; h_corr := 3; h_at := fun s r f i j => ((INR (s + r + f + i), INR j) : RC) |}; p_dde2 := None; p_die1 := None; p_bvis := None; p_die2 := None |}.
  split; [constructor; cbn; intros ? E; first [discriminate E | injection E as <-; cbn; auto 10]|]. repeat split. cbn. lia.
Qed.
