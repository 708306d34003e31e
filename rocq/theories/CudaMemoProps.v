(* C96: the caches of generated CUDA kernels, after every history of calls *)
From Coq Require Import String Permutation.
From Verif Require Import Prelude CRing CohModel CohSpec CohProps DaskRimeModel PredictModel CudaPredictModel CudaRimeModel CudaBeamModel CudaCohModel CudaCohSpec
  CudaMemoModel CudaMemoSpec CudaMemoProofs CudaMemoProofs2.
Open Scope nat_scope.
Open Scope list_scope.

(* A call returns what the earliest successful call with its key returned, or what the function returns if there was none. *)
Theorem C96_memoized : forall {A Ky V : Type} (same : Ky -> Ky -> bool) (key : A -> Ky) (fn : A -> res V), decides same -> forall h a,
  (forall v, first_success key fn h a v -> memoized same key fn h a = Ok v) /\
  (no_success key fn h a -> memoized same key fn h a = fn a) /\
  ((exists v, first_success key fn h a v) \/ no_success key fn h a).
Proof. intros A Ky V same key fn D. exact (memoized_spec same key fn D). Qed.

Section Kernels.
  Variables (cuda_type : dt -> res string) (cuda_function : string -> dt -> res string) (result_type : list (option dt) -> res dt).
  Variables (float32 float64 int32 complex64 complex128 : dt) (real_of : dt -> dt).
  (* The kernels for the phase delay, the feed rotation, the prediction and the frequencies of the beam - or the exception - do not
     depend on the earlier calls. *)
Theorem C96_phase : forall h c, let g := phase_generate cuda_type cuda_function result_type float32 complex64 in
    memoized (all_eqb Nat.eqb) phase_key g h c = g c.
  Proof. exact (phase_fresh cuda_type cuda_function result_type float32 complex64). Qed.
Theorem C96_feeds : forall h c, let g := feed_generate cuda_type cuda_function result_type float32 float64 complex64 in
    memoized (pair_eqb Nat.eqb String.eqb) feed_key g h c = g c.
  Proof. exact (feed_fresh cuda_type cuda_function result_type float32 float64 complex64). Qed.
Theorem C96_predict : forall h c, let g := predict_generate cuda_type result_type int32 complex128 in
    memoized predict_same predict_key g h c = g c.
  Proof. exact (predict_fresh cuda_type result_type int32 complex128). Qed.
Theorem C96_beam_frequencies : forall h c, let g := interp_generate cuda_type result_type in
    memoized (all_eqb Nat.eqb) interp_key g h c = g c.
  Proof. exact (interp_fresh cuda_type result_type). Qed.
  (* Nor does that of the beam, for a cube with two points or more along every axis. *)
Theorem C96_beam : forall h c, interpolable c ->
    let g := beam_generate cuda_type cuda_function result_type float32 float64 complex64 complex128 real_of in
    memoized (all_eqb Nat.eqb) beam_key g h c = g c.
  Proof. exact (beam_fresh cuda_type cuda_function result_type float32 float64 complex64 complex128 real_of). Qed.
End Kernels.
(* "A cube with fewer points is refused" is false once a kernel for the same types and dimensions has been generated. *)
Theorem C96_beam_refuted : exists cuda_type cuda_function result_type float32 float64 complex64 complex128 real_of h c,
  let g := beam_generate cuda_type cuda_function result_type float32 float64 complex64 complex128 real_of in
  ~ interpolable c /\ g c = Raise ValueError /\ exists kernel, memoized (all_eqb Nat.eqb) beam_key g h c = Ok kernel.
Proof.
  exists (fun _ => Ok EmptyString), (fun f _ => Ok f), (fun _ => Ok 0), 0, 1, 2, 3, (fun d => d - 2),
    [{| bc_beam := {| ar_type := 2; ar_shape := [3; 3; 4; 1] |}; bc_ext := 0; bc_map := 0; bc_lm := 0; bc_pa := 0; bc_pe := 0; bc_as := 0; bc_freq := 0;
        bc_dde_dims := 5; bc_ncorr := 1 |}],
    {| bc_beam := {| ar_type := 2; ar_shape := [3; 3; 1; 1] |}; bc_ext := 0; bc_map := 0; bc_lm := 0; bc_pa := 0; bc_pe := 0; bc_as := 0; bc_freq := 0;
        bc_dde_dims := 5; bc_ncorr := 1 |}.
  cbv zeta. split; [|split; [reflexivity|eexists; reflexivity]].
  intros (lw & mh & nud & rest & E & _ & _ & H). cbn in E. injection E as _ _ <- _. lia.
Qed.

(* An array whose shape ends in that of the input schema is converted as by a first call, after every history. *)
Theorem C96_convert : forall {K : cops} (half : K) class h d und garbage order (a : ndarr K) is os fs di,
  rect (boxed is) di -> nd_shape a = fs ++ di ->
  cuda_convert_after half class h d und garbage order a is os = cuda_convert half (class d) und garbage order a is os.
Proof. intros K half class. exact (convert_fresh half class). Qed.
(* Any other array is refused by a first call.  After a call with the same type and schemas that generated its kernel, it is refused only
   if its size does not fit, and is otherwise converted as if it had been reshaped. *)
Theorem C96_convert_other_shapes : forall {K : cops} (half : K) class h d und garbage order (a : ndarr K) is os di shape,
  rect (boxed is) di -> any_order order ->
  In (d, shape, is, os) h -> (exists v, convert_generate half class (d, shape, is, os) = Ok v) ->
  (forall fs, nd_shape a <> fs ++ di) ->
  let lead := leading (nd_shape a) di in
  cuda_convert half (class d) und garbage order a is os = Raise ValueError /\
  (prodn (nd_shape a) <> prodn lead * prodn di ->
     cuda_convert_after half class h d und garbage order a is os = Raise ValueError) /\
  (prodn (nd_shape a) = prodn lead * prodn di ->
     (forall e, cuda_convert half (class d) und garbage order (reshaped a (lead ++ di)) is os = Raise e ->
       cuda_convert_after half class h d und garbage order a is os = Raise e) /\
     forall out, cuda_convert half (class d) und garbage order (reshaped a (lead ++ di)) is os = Ok out ->
       exists out', cuda_convert_after half class h d und garbage order a is os = Ok out' /\
         nd_shape out' = nd_shape out /\ forall idx, inside idx (nd_shape out) -> nd_at out' idx = nd_at out idx).
Proof. intros K half class. exact (convert_stale half class). Qed.

(* ---------- cases ---------- *)
Definition linear_class (d : dt) : in_type := match d with 0 => TReal | 1 => TComplex | _ => TUnmapped end.
Definition row_of_four : ndarr GI := {| nd_shape := [4]; nd_at := fun idx => (({| g_re := Z.of_nat (nth 0 idx 0); g_im := 0 |} : GI), c0) |}.
(* "An array that does not match the input schema is refused" is false: four numbers in a row for a 2 x 2 schema, after a call with a
   2 x 2 array *)
Theorem C96_convert_refuted : exists h d und garbage order (a : ndarr GI) is os out,
  any_order order /\
  cuda_convert (c0 : GI) (linear_class d) und garbage order a is os = Raise ValueError /\
  cuda_convert_after (c0 : GI) linear_class h d und garbage order a is os = Ok out /\ nd_shape out = [4].
Proof.
  exists [(1, [2; 2], square_linear, flat_stokes)], 1, (fun _ => (fun _ => cx0, fun _ => cx0)), (fun _ => cx0), (fun n => seq 0 n),
    row_of_four, square_linear, flat_stokes.
  set (o := cuda_convert_after (c0 : GI) linear_class [(1, [2; 2], square_linear, flat_stokes)] 1 (fun _ => (fun _ => cx0, fun _ => cx0)) (fun _ => cx0) (fun n => seq 0 n)
    row_of_four square_linear flat_stokes).
  assert (H : match o with Ok x => nd_shape x = [4] | Raise _ => False end) by (vm_compute; reflexivity).
  destruct o as [x|e] eqn:E; [|contradiction]. exists x. split; [intros n; reflexivity|]. split; [reflexivity|]. split; auto.
Qed.
Print Assumptions C96_memoized.
Print Assumptions C96_phase.
Print Assumptions C96_feeds.
Print Assumptions C96_predict.
Print Assumptions C96_beam_frequencies.
Print Assumptions C96_beam.
Print Assumptions C96_beam_refuted.
Print Assumptions C96_convert.
Print Assumptions C96_convert_other_shapes.
Print Assumptions C96_convert_refuted.

Example ex_first_success : first_success (fun n => n mod 2) (fun n => if Nat.ltb n 3 then Raise TypeError else Ok n) [1; 4; 5; 7] 9 5.
Proof. exists [1; 4], 5, [7]. repeat split. intros c [<-|[<-|[]]] H; [now exists TypeError|discriminate]. Qed.
Example ex_memoized : memoized Nat.eqb (fun n => n mod 2) (fun n => if Nat.ltb n 3 then Raise TypeError else Ok n) [1; 4; 5; 7] 9 = Ok 5.
Proof. reflexivity. Qed.
(* a prediction whose kernel is cached, then one with the same types and ranks, then one that is refused *)
Definition ex_arr (d : dt) (shape : list nat) := {| ar_type := d; ar_shape := shape |}.
Definition ex_predict (rows sources : nat) (rank : list nat) : predict_call :=
  {| pc_time := ex_arr 0 [rows]; pc_ant1 := ex_arr 0 [rows]; pc_ant2 := ex_arr 0 [rows]; pc_dde1 := None;
     pc_coh := Some (ex_arr 3 ([sources; rows] ++ rank)); pc_dde2 := None; pc_die1 := None; pc_bvis := None; pc_die2 := None;
     pc_corrs := [4]; pc_out_ndim := 3 |}.
Example ex_predict_history :
  let g := predict_generate (fun _ => Ok "float2"%string) (fun _ => Ok 3) 0 4 in
  let m := memoized predict_same predict_key g [ex_predict 5 2 [8; 4]] in
  (exists k, m (ex_predict 7 1 [8; 4]) = Ok k /\ g (ex_predict 7 1 [8; 4]) = Ok k) /\
  m (ex_predict 7 1 [4]) = Raise ValueError.
Proof. cbv zeta. split; [eexists; split; reflexivity|reflexivity]. Qed.
Example ex_stale_hypotheses :
  rect (boxed square_linear) [2; 2] /\ (exists v, convert_generate (c0 : GI) linear_class (1, [2; 2], square_linear, flat_stokes) = Ok v) /\
  (forall fs, nd_shape row_of_four <> fs ++ [2; 2]) /\ prodn (nd_shape row_of_four) = prodn (leading (nd_shape row_of_four) [2; 2]) * prodn [2; 2].
Proof.
  split; [apply ex_rect_square|]. split; [eexists; reflexivity|]. split; [|reflexivity].
  intros [|x [|y [|z fs]]] H; discriminate.
Qed.
