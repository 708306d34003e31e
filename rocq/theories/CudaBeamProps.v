(* C94: the CUDA beam against the CPU beam, for every interleaving of the threads and every previous content of the memories *)
From Coq Require Import Reals Lra.
From Verif Require Import Prelude CRing CplxR BeamModel DaskRimeModel CudaModel CudaSpec CudaBeamModel CudaBeamSpec CudaBeamProofs4 CudaBeamProofs5.
Open Scope nat_scope.

(* Up to 1024 channels, when the last row of threads can load the extents and the threads of a warp run in step: the first kernel
   leaves the scale, weight and plane of every channel, and the second, given that, the Jones terms of the CPU. *)
Theorem C94_beam : forall bt b ncorr ext freq_map nsrc lm ntime na pa point_errors antenna_scaling nchan frequency,
  bt <> NotComplex -> 2 <= b_lw b -> 2 <= b_mh b -> 2 <= b_nud b < 128 -> ncorr = 1 \/ ncorr = 2 \/ ncorr = 4 ->
  nchan <= 1024 -> last_row_loads (nchan * ncorr) ->
  exists k1 k2 out,
    cuda_beam_cube_dde true bt b ncorr ext (b_nud b) freq_map nsrc lm ntime na pa point_errors antenna_scaling nchan frequency = Ok (k1, k2) /\
    beam_cube_dde b ext (b_nud b) freq_map nsrc lm ntime na pa point_errors antenna_scaling nchan frequency = Ok out /\
    computes k1 (freq_out (b_nud b) nchan (fun _ => freq_map) frequency) /\
    forall g o n s, runs k1 n (init g o) s -> finished k1 s -> computes (k2 (st_out s)) (beam_out nsrc ntime na nchan ncorr out).
Proof. exact beam_gpu. Qed.
(* From channel 1024 on, the first kernel interpolates in memory that its block never filled: whatever the inputs, there are previous
   contents with which every run ends with a weight that is not the CPU's. *)
Theorem C94_many_channels_refuted : forall lockstep bt b ncorr ext freq_map nsrc lm ntime na pa point_errors antenna_scaling nchan frequency,
  bt <> NotComplex -> 2 <= b_lw b -> 2 <= b_mh b -> 2 <= b_nud b < 128 -> ncorr = 1 \/ ncorr = 2 \/ ncorr = 4 -> 1024 < nchan ->
  exists k1 k2,
    cuda_beam_cube_dde lockstep bt b ncorr ext (b_nud b) freq_map nsrc lm ntime na pa point_errors antenna_scaling nchan frequency = Ok (k1, k2) /\
    exists stale, forall o n s, runs k1 n (init stale o) s -> finished k1 s ->
      Some (st_out s [1; 1024]) <> freq_out (b_nud b) nchan (fun _ => freq_map) frequency [1; 1024].
Proof. exact many_channels. Qed.
(* One channel and one correlation: three of the four extents are never loaded, and every run may give another value than the CPU. *)
Theorem C94_short_row_refuted : exists k1 k2 out, toy_gpu true 1 = Ok (k1, k2) /\ toy_cpu 1 = Ok out /\
  exists stale, forall g o n s, runs k1 n (init g o) s -> finished k1 s ->
    forall o' n' s', runs (k2 (st_out s)) n' (init stale o') s' -> finished (k2 (st_out s)) s' -> st_out s' [0] <> out 0 0 0 0 0.
Proof. exact short_row. Qed.
(* If the threads of a warp need not run in step, some interleaving computes the scales before the extents are there. *)
Theorem C94_lockstep_refuted : exists k1 k2 out, toy_gpu false 4 = Ok (k1, k2) /\ toy_cpu 4 = Ok out /\
  exists stale, forall g o n s, runs k1 n (init g o) s -> finished k1 s ->
    forall o', exists n' s', runs (k2 (st_out s)) n' (init stale o') s' /\ finished (k2 (st_out s)) s' /\ st_out s' [0] <> out 0 0 0 0 0.
Proof. exact race. Qed.
(* The checks, in the order of the code. *)
Theorem C94_raises : forall lockstep bt b ncorr ext nmap freq_map nsrc lm ntime na pa point_errors antenna_scaling nchan frequency,
  let r := cuda_beam_cube_dde lockstep bt b ncorr ext nmap freq_map nsrc lm ntime na pa point_errors antenna_scaling nchan frequency in
  (128 <= b_nud b \/ b_lw b < 2 \/ b_mh b < 2 \/ b_nud b < 2 -> r = Raise ValueError) /\
  (b_nud b < 128 -> 2 <= b_lw b -> 2 <= b_mh b -> 2 <= b_nud b ->
     (bt = NotComplex -> r = Raise TypeError) /\
     (bt <> NotComplex -> ncorr <> 1 -> ncorr <> 2 -> ncorr <> 4 -> r = Raise ValueError)).
Proof. exact beam_raises. Qed.

Print Assumptions C94_beam.
Print Assumptions C94_many_channels_refuted.
Print Assumptions C94_short_row_refuted.
Print Assumptions C94_lockstep_refuted.
Print Assumptions C94_raises.

(* 20 channels of 2 correlations: a full row of threads and a row of 8 *)
Example C94_case ext freq_map lm pa pe asc fr : let b := {| b_lw := 5; b_mh := 6; b_nud := 3; b_at := fun i j k c => ofR (INR (i + j + k + c)) |} in
  last_row_loads (20 * 2) /\ exists k1 k2 out, cuda_beam_cube_dde true Complex128 b 2 ext 3 freq_map 7 lm 4 40 pa pe asc 20 fr = Ok (k1, k2) /\
    (forall g o n s, runs k1 n (init g o) s -> finished k1 s -> computes (k2 (st_out s)) (beam_out 7 4 40 20 2 out)) /\
    kn_blocks (k2 (fun _ => 0%R)) = 2 * 3 * 4.
Proof.
  intros b. assert (L : last_row_loads (20 * 2)) by (right; cbn; lia). split; [exact L|].
  destruct (C94_beam Complex128 b 2 ext freq_map 7 lm 4 40 pa pe asc 20 fr ltac:(discriminate) ltac:(cbn; lia) ltac:(cbn; lia) ltac:(cbn; lia) ltac:(auto) ltac:(lia) L)
    as (k1 & k2 & out & E & _ & _ & C).
  exists k1, k2, out. split; [exact E|]. split; [exact C|]. injection E as <- <-. reflexivity.
Qed.
