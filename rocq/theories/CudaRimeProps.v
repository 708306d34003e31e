(* C93: the CUDA phase delay and feed rotation give the CPU results for every interleaving of their threads *)
From Coq Require Import Reals Lra String.
From Verif Require Import Prelude CRing CplxR UtilModel RimeModel RimeSpec DaskRimeModel DaskRimeSpec CohSpec CudaModel CudaSpec CudaProofs CudaRimeModel CudaRimeSpec CudaRimeProofs.
Open Scope nat_scope.

(* Whatever the interleaving and the previous contents of the memories, each output is exp(-2 pi i nu / c (l u + m v + (n-1) w)). *)
Theorem C93_phase : forall single_f single_u nsrc nrow nchan lm uvw frequency, contiguous 2 lm -> contiguous 3 uvw ->
  exists k, cuda_phase_delay single_f single_u nsrc nrow nchan lm uvw frequency = Ok k /\
    computes k (out3 nsrc nrow nchan (fun s r f =>
      cis (- delay (elem lm s 0) (elem lm s 1) (elem uvw r 0) (elem uvw r 1) (elem uvw r 2) (frequency f)))).
Proof. exact cuda_phase. Qed.
Theorem C93_phase_cpu : forall single_f single_u nsrc nrow nchan lm uvw frequency, contiguous 2 lm -> contiguous 3 uvw ->
  exists k c, cuda_phase_delay single_f single_u nsrc nrow nchan lm uvw frequency = Ok k /\
    phase_delay nsrc nrow nchan (elem lm) (elem uvw) frequency "fourier" = Ok c /\ computes k (out3 nsrc nrow nchan c).
Proof. exact cuda_phase_cpu. Qed.
(* Arrays that are not contiguous are read as if they were: a transposed lm gives other delays than on the CPU. *)
Theorem C93_strided_refuted : exists lm uvw frequency k c, vw_s0 lm = 1 /\ vw_s1 lm = 2 /\ contiguous 3 uvw /\
  cuda_phase_delay false false 2 1 1 lm uvw frequency = Ok k /\ phase_delay 2 1 1 (elem lm) (elem uvw) frequency "fourier" = Ok c /\
  forall g o n s, runs k n (init g o) s -> finished k s -> st_out s [0; 0; 0] <> c 0 0 0.
Proof. exact strided_differs. Qed.
(* Feed rotation, angles of any shape. *)
Theorem C93_feed : forall shape pa dt ft, dt <> OtherType -> ft = "linear"%string \/ ft = "circular"%string ->
  exists k, cuda_feed_rotation shape pa dt ft = Ok k /\ computes k (feed_out shape pa ft).
Proof. exact cuda_feed. Qed.
Theorem C93_feed_cpu : forall shape pa dt ft g, shape <> [] -> dt <> OtherType -> ft = "linear"%string \/ ft = "circular"%string ->
  exists k o, cuda_feed_rotation shape pa dt ft = Ok k /\ nd_feed_rotation shape pa true ft g = Ok o /\
    forall idx i j, inside idx shape -> i < 2 -> j < 2 -> feed_out shape pa ft [ravel shape idx; 2 * i + j] = Some (o idx i j).
Proof. exact cuda_feed_cpu. Qed.
(* Other types raise TypeError, whatever the feed type; other feed types fail when the template is rendered. *)
Theorem C93_feed_raises : forall shape pa dt ft,
  (dt = OtherType -> cuda_feed_rotation shape pa dt ft = Raise TypeError) /\
  (dt <> OtherType -> ft <> "linear"%string -> ft <> "circular"%string -> cuda_feed_rotation shape pa dt ft = Raise template_exn).
Proof.
  intros shape pa dt ft. split; [intros ->; reflexivity|]. intros D A B. unfold cuda_feed_rotation.
  destruct (String.eqb_spec ft "linear"); [contradiction|]. destruct (String.eqb_spec ft "circular"); [contradiction|]. destruct dt; [reflexivity|reflexivity|contradiction].
Qed.
(* What computes says is not empty: such a launch has a run that ends. *)
Theorem C93_ends : forall (k : kernel R RC) spec g o, computes k spec -> exists n s, runs k n (init g o) s /\ finished k s.
Proof. intros. now apply (computes_ends k spec). Qed.

Print Assumptions C93_phase.
Print Assumptions C93_phase_cpu.
Print Assumptions C93_strided_refuted.
Print Assumptions C93_feed.
Print Assumptions C93_feed_cpu.
Print Assumptions C93_feed_raises.
Print Assumptions C93_ends.

(* 40 channels and 70 rows: several blocks in both directions, the last ones partly outside *)
Example C93_case lm uvw frequency : contiguous 2 {| vw_mem := lm; vw_s0 := 2; vw_s1 := 1 |} /\ contiguous 3 {| vw_mem := uvw; vw_s0 := 3; vw_s1 := 1 |} /\
  exists k, cuda_phase_delay true false 3 70 40 {| vw_mem := lm; vw_s0 := 2; vw_s1 := 1 |} {| vw_mem := uvw; vw_s0 := 3; vw_s1 := 1 |} frequency = Ok k /\
    kn_blocks k = 10 /\ kn_active k 9 0 = true /\ kn_active k 9 (32 * 15) = false.
Proof. repeat split. eexists. split; [reflexivity|]. repeat split; reflexivity. Qed.
Example C93_feed_case pa : exists k, cuda_feed_rotation [3; 5] pa F64 "circular" = Ok k /\ computes k (feed_out [3; 5] pa "circular") /\
  feed_out [3; 5] pa "circular" [ravel [3; 5] [2; 4]; 3] = Some (cis (pa [2; 4])).
Proof.
  destruct (C93_feed [3; 5] pa F64 "circular" ltac:(discriminate) ltac:(auto)) as (k & E & C). exists k. split; [exact E|]. split; [exact C|reflexivity].
Qed.
