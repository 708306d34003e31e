(* C113: what rounding does to predicted visibilities. *)
From Coq Require Import Reals Lra Lia Permutation.
From Verif Require Import Prelude PreludeFacts CRing CplxR PredictModel PredictSpec DaskPredictModel DaskPredictSpec
  RoundModel RoundSpec RoundProofs RoundProofs3 RoundProofs4.
Open Scope nat_scope.

(* Whatever the rounding of single operations, as long as its relative error is at most u, every visibility is off by at most
   gamma u (number of sources + 13) times the same formula evaluated on the sizes of the entries. *)
Theorem C113_predict fl u full nsrc nchan ncorr (a : predict_in RC) : roundoff fl u ->
  shapes full nsrc nchan ncorr a -> paired (p_dde1 a) (p_dde2 a) -> paired (p_die1 a) (p_die2 a) -> supplied a -> 0 < p_nrow a ->
  exists out, predict_vis (stored fl a) = Ok out /\
    forall tmin, is_min (p_nrow a) (p_time a) tmin ->
    forall r f i j, r < p_nrow a -> f < nchan -> corr_ok full ncorr i j ->
      let t := Z.to_nat (p_time a r - tmin) in
      (apart (v_at out r f i j) (measurement full t a r f i j) <= gamma u (nsrc + 13) * measurement full t (sizes a) r f i j)%R.
Proof. intros Hu. exact (predict_rounding fl u Hu full nsrc nchan ncorr a). Qed.

(* Chunked, streamed in any schedule or summed over any tree, the bound gains one operation per source chunk. *)
Theorem C113_chunked fl u full nsrc nchan ncorr (a : predict_in RC) ch : roundoff fl u ->
  shapes full nsrc nchan ncorr a -> paired (p_dde1 a) (p_dde2 a) -> paired (p_die1 a) (p_die2 a) ->
  chunks_ok ch nsrc nchan a -> (p_dde1 a <> None \/ p_coh a <> None) ->
  forall rb cb v, rb < length (ck_row ch) -> cb < length (ck_chan ch) -> reduction_value ch (stored fl a) rb cb v ->
  exists s out, v = VVis s /\ finish_block ch (stored fl a) (Some s) rb cb = Ok out /\
    forall tmin, is_min (p_nrow a) (p_time a) tmin ->
    forall r f i j, r < nth rb (ck_row ch) 0 -> f < nth cb (ck_chan ch) 0 -> corr_ok full ncorr i j ->
      let row := chunk_off (ck_row ch) rb + r in let chan := chunk_off (ck_chan ch) cb + f in
      let t := Z.to_nat (p_time a row - tmin) in
      (apart (v_at out r f i j) (measurement full t a row chan i j) <=
       gamma u (nsrc + length (ck_src ch) + 13) * measurement full t (sizes a) row chan i j)%R.
Proof. intros Hu. exact (chunked_rounding fl u Hu full nsrc nchan ncorr a ch). Qed.

(* The constant of complex128 and of complex64. *)
Theorem C113_double : roundoff (nearest 53) (/ 2 ^ 53)%R.
Proof. exact nearest_53. Qed.
Theorem C113_single : roundoff (nearest 24) (/ 2 ^ 24)%R.
Proof. exact nearest_24. Qed.
(* gamma is the usual n u / (1 - n u). *)
Theorem C113_gamma u n : (0 <= u)%R -> (INR n * u < 1)%R -> (gamma u n <= INR n * u / (1 - INR n * u))%R.
Proof. exact (gamma_bound u n). Qed.

(* In double precision the order of the sources shows in the result, and so does the chunking of the sources: C28 and the
   order independence hold in exact arithmetic only. *)
Theorem C113_order_refuted : ~ (forall l l' (out out' : vis_arr (rounded (nearest 53))),
  Permutation l l' -> predict_vis (sources l) = Ok out -> predict_vis (sources l') = Ok out' -> v_at out 0 0 0 0 = v_at out' 0 0 0 0).
Proof. exact order_matters. Qed.
Theorem C113_chunks_refuted : ~ (forall full nsrc nchan ncorr (a : predict_in (rounded (nearest 53))) ch rb cb whole v out,
  shapes full nsrc nchan ncorr a -> paired (p_dde1 a) (p_dde2 a) -> paired (p_die1 a) (p_die2 a) -> (p_dde1 a <> None \/ p_coh a <> None) ->
  chunks_ok ch nsrc nchan a -> rb < length (ck_row ch) -> cb < length (ck_chan ch) ->
  predict_vis a = Ok whole -> reduction_value ch a rb cb (VVis v) -> finish_block ch a (Some v) rb cb = Ok out -> block_equals full ncorr ch rb cb whole out).
Proof. exact chunks_matter. Qed.

(* Three sources in double precision: the hypotheses hold and the bound is 16 operations. *)
Definition three : predict_in RC := sources [((1, 0) : RC); ((0, 2) : RC); ((-1, 3) : RC)]%R.
Example three_predicted : exists out, predict_vis (stored (nearest 53) three) = Ok out /\
  (apart (v_at out 0%nat 0%nat 0%nat 0%nat) (0, 5) <= gamma (/ 2 ^ 53) 16 * 7)%R.
Proof.
  destruct (C113_predict _ _ false 3 1 1 three C113_double) as (out & E & H).
  - exact (sources_shapes [((1, 0) : RC); ((0, 2) : RC); ((-1, 3) : RC)]%R).
  - unfold paired; cbn; tauto.
  - unfold paired; cbn; tauto.
  - right. left. discriminate.
  - cbn. lia.
  - exists out. split; [exact E|].
    specialize (H 0%Z (min_one _) 0 0 0 0 ltac:(cbn; lia) ltac:(lia) ltac:(split; lia)). cbv zeta in H.
    replace (measurement false (Z.to_nat (p_time three 0 - 0)) three 0 0 0 0) with ((0, 5)%R : RC) in H
      by (cbn; apply injective_projections; cbn; ring).
    replace (measurement false (Z.to_nat (p_time three 0 - 0)) (sizes three) 0 0 0 0) with (7%R : RR) in H; [exact H|].
    cbn. unfold size. cbn. rewrite ?Rabs_R0, ?Rabs_R1, (Rabs_left (-1)), (Rabs_right 2), (Rabs_right 3) by lra. ring.
Qed.
Example three_chunks : chunks_ok split12 3 1 three /\ exists v, reduction_value split12 (stored (nearest 53) three) 0 0 v.
Proof.
  split.
  - constructor; cbn; try reflexivity; try discriminate.
    + intros rb H. replace rb with 0 by lia. lia.
    + intros tmin Hm rb H. replace rb with 0 by lia. cbn. rewrite Z.add_0_r. exact Hm.
  - destruct (tree_sum split12 (stored (nearest 53) three) 0 0 (Node (Leaf 0) (Leaf 1))) as [w|e] eqn:E.
    + exists (VVis w). apply (by_tree _ _ _ _ (Node (Leaf 0) (Leaf 1))); [reflexivity|exact E].
    + exists (VErr e). apply (by_failed_tree _ _ _ _ (Node (Leaf 0) (Leaf 1))); [reflexivity|exact E].
Qed.

Print Assumptions C113_predict.
Print Assumptions C113_chunked.
Print Assumptions C113_double.
Print Assumptions C113_single.
Print Assumptions C113_gamma.
Print Assumptions C113_order_refuted.
Print Assumptions C113_chunks_refuted.
