(* C117: averaging in two steps *)
From Coq Require Import Reals Lra Lia.
From Verif Require Import Prelude AvgModel AvgModel2 AvgSpec AvgSpec2 RavgModel StepsSpec StepsProofs StepsProofs2.
Open Scope R_scope.

(* C117.  Averaging data with weight spectra that are not negative, and averaging the result again, gives the flags, weights,
   visibilities and sigmas of averaging once into the final bins. *)
Theorem C117_two_steps : forall n nchan ncorr m1 k1 m2 k2 rmap1 cmap1 rmap2 cmap2 fr0 fr1 fr2 x ws out1 out2,
  (forall i, (i < n)%nat -> (rmap1 i < m1)%nat) -> (forall ch, (ch < nchan)%nat -> (cmap1 ch < k1)%nat) ->
  merged n m1 rmap1 fr0 fr1 -> merged m1 m2 rmap2 fr1 fr2 ->
  in_wspec RK x = Some ws -> (forall i ch c, (i < n)%nat -> (ch < nchan)%nat -> (c < ncorr)%nat -> 0 <= ws i ch c) ->
  row_chan_average RK n nchan ncorr m1 k1 rmap1 cmap1 fr0 fr1 x = Ok out1 ->
  row_chan_average RK m1 k1 ncorr m2 k2 rmap2 cmap2 fr1 fr2 (averaged x out1) = Ok out2 ->
  exists out, row_chan_average RK n nchan ncorr m2 k2 (fun i => rmap2 (rmap1 i)) (fun ch => cmap2 (cmap1 ch)) fr0 fr2 x = Ok out /\
    forall r f c, (r < m2)%nat -> (f < k2)%nat -> (c < ncorr)%nat -> same_cell x (out2 r f c) (out r f c).
Proof.
  intros n nchan ncorr m1 k1 m2 k2 rmap1 cmap1 rmap2 cmap2 fr0 fr1 fr2 x ws out1 out2 R1 C1 M1 M2 W W0 E1 E2.
  destruct (steps_total n nchan ncorr m1 k1 m2 k2 rmap1 cmap1 rmap2 cmap2 fr0 fr1 fr2 x out1 out2 R1 C1 M1 M2 E1 E2) as [out E].
  exists out. split; [exact E|]. exact (steps_cells n nchan ncorr m1 k1 m2 k2 rmap1 cmap1 rmap2 cmap2 fr0 fr1 fr2 x ws out1 out2 R1 C1 M1 M2 W W0 E1 E2 out E).
Qed.
(* so averaging channels by a and then by b is averaging them by a * b *)
Theorem C117_channels : forall a b n nchan ncorr m rmap fr0 fr1 x ws out1 out2, (0 < a)%nat -> (0 < b)%nat ->
  (forall i, (i < n)%nat -> (rmap i < m)%nat) -> merged n m rmap fr0 fr1 -> in_wspec RK x = Some ws ->
  (forall i ch c, (i < n)%nat -> (ch < nchan)%nat -> (c < ncorr)%nat -> 0 <= ws i ch c) ->
  let '(m1, k1) := channel_mapper nchan a in let '(m2, k2) := channel_mapper k1 b in let '(m12, k) := channel_mapper nchan (a * b) in
  row_chan_average RK n nchan ncorr m k1 rmap m1 fr0 fr1 x = Ok out1 ->
  row_chan_average RK m k1 ncorr m k2 (fun i => i) m2 fr1 fr1 (averaged x out1) = Ok out2 ->
  k2 = k /\ exists out, row_chan_average RK n nchan ncorr m k rmap m12 fr0 fr1 x = Ok out /\
    forall r f c, (r < m)%nat -> (f < k)%nat -> (c < ncorr)%nat -> same_cell x (out2 r f c) (out r f c).
Proof. exact channels_twice. Qed.
(* the same for the widths, effective bandwidths and resolutions of the channels *)
Theorem C117_widths : forall nchan a b col f, (0 < a)%nat -> (0 < b)%nat ->
  let '(m1, k1) := channel_mapper nchan a in let '(m2, _) := channel_mapper k1 b in let '(m, _) := channel_mapper nchan (a * b) in
  chan_sum RK k1 m2 (chan_sum RK nchan m1 col) f = chan_sum RK nchan m col f.
Proof. exact widths_twice. Qed.
(* and for their frequencies, if the first step leaves no shorter bin *)
Theorem C117_frequencies : forall nchan a b col f, (0 < a)%nat -> (0 < b)%nat -> Nat.modulo nchan a = 0%nat ->
  let '(m1, k1) := channel_mapper nchan a in let '(m2, k2) := channel_mapper k1 b in let '(m, k) := channel_mapper nchan (a * b) in
  (f < k)%nat -> chan_freq_mean RK k1 k2 m2 (chan_freq_mean RK nchan k1 m1 col) f = chan_freq_mean RK nchan k m col f.
Proof. exact freqs_twice. Qed.
(* otherwise not: three channels by two and by two *)
Theorem C117_frequencies_refuted : ~ forall nchan a b col f, (0 < a)%nat -> (0 < b)%nat ->
  let '(m1, k1) := channel_mapper nchan a in let '(m2, k2) := channel_mapper k1 b in let '(m, k) := channel_mapper nchan (a * b) in
  (f < k)%nat -> chan_freq_mean RK k1 k2 m2 (chan_freq_mean RK nchan k1 m1 col) f = chan_freq_mean RK nchan k m col f.
Proof.
  intros H. specialize (H 3%nat 2%nat 2%nat (fun i => if Nat.eqb i 2 then 3 else 0) 0%nat ltac:(lia) ltac:(lia)). cbn in H. specialize (H ltac:(lia)). lra.
Qed.
(* without weights, averaging rows in two steps is not averaging them in one *)
Theorem C117_unweighted_refuted : ~ forall n nchan ncorr m1 k1 m2 k2 rmap1 cmap1 rmap2 cmap2 x out1 out2 out,
  (forall i, (i < n)%nat -> (rmap1 i < m1)%nat) -> (forall ch, (ch < nchan)%nat -> (cmap1 ch < k1)%nat) ->
  row_chan_average RK n nchan ncorr m1 k1 rmap1 cmap1 None None x = Ok out1 ->
  row_chan_average RK m1 k1 ncorr m2 k2 rmap2 cmap2 None None (averaged x out1) = Ok out2 ->
  row_chan_average RK n nchan ncorr m2 k2 (fun i => rmap2 (rmap1 i)) (fun ch => cmap2 (cmap1 ch)) None None x = Ok out ->
  forall r f c, (r < m2)%nat -> (f < k2)%nat -> (c < ncorr)%nat -> same_cell x (out2 r f c) (out r f c).
Proof.
  intros H.
  pose (x := Build_chan_cols RK None (Some (fun i _ _ => (INR i, 0))) None None None).
  pose (r1 := fun i => if Nat.ltb i 2 then 0%nat else 1%nat). pose (z := fun _ : nat => 0%nat).
  assert (exists o1, row_chan_average RK 3 1 1 2 1 r1 z None None x = Ok o1 /\ oc_vis RK (o1 0 0 0)%nat = (/ 2, 0) /\ oc_vis RK (o1 1 0 0)%nat = (2, 0)) as (o1 & E1 & V0 & V1).
  { eexists. split; [cbn; reflexivity|]. split; cbn; unfold vis_norm; cbn; unfold rne; destruct (Req_EM_T _ 0); cbn; try (exfalso; lra); f_equal; lra. }
  assert (exists o2, row_chan_average RK 2 1 1 1 1 z z None None (averaged x o1) = Ok o2 /\ oc_vis RK (o2 0 0 0)%nat = (5 / 4, 0)) as (o2 & E2 & V2).
  { eexists. split; [cbn; reflexivity|]. cbn. rewrite V0, V1. unfold vis_norm. cbn. unfold rne. destruct (Req_EM_T _ 0); cbn; try (exfalso; lra). f_equal; lra. }
  assert (exists o, row_chan_average RK 3 1 1 1 1 z z None None x = Ok o /\ oc_vis RK (o 0 0 0)%nat = (1, 0)) as (o & E & V).
  { eexists. split; [cbn; reflexivity|]. cbn. unfold vis_norm. cbn. unfold rne. destruct (Req_EM_T _ 0); cbn; try (exfalso; lra). f_equal; lra. }
  destruct (H 3%nat 1%nat 1%nat 2%nat 1%nat 1%nat 1%nat r1 z z z x o1 o2 o) with (r := 0%nat) (f := 0%nat) (c := 0%nat) as (_ & _ & V' & _); try lia; try assumption.
  - intros i Hi. unfold r1. destruct (Nat.ltb i 2); lia.
  - intros ch _. unfold z. lia.
  - rewrite V2, V in V'. specialize (V' ltac:(discriminate)). injection V' as V'. lra.
Qed.

Print Assumptions C117_two_steps.
Print Assumptions C117_channels.
Print Assumptions C117_widths.
Print Assumptions C117_frequencies.
Print Assumptions C117_frequencies_refuted.
Print Assumptions C117_unweighted_refuted.

(* a case: three flagged and unflagged rows with weights, into two rows and then one *)
Definition case_x : chan_cols RK := Build_chan_cols RK None (Some (fun i _ _ => (INR i, 1))) (Some (fun i _ _ => Z.of_nat i - 1)%Z) (Some (fun i ch c => INR i))
  (Some (fun _ _ _ => 2)).
Example case_two_steps : let r1 := fun i => if Nat.ltb i 2 then 0%nat else 1%nat in let z := fun _ : nat => 0%nat in let f := Some (fun _ : nat => 0%Z) in
  merged 3 2 r1 f f /\ merged 2 1 z f f /\ exists o1 o2, row_chan_average RK 3 1 1 2 1 r1 z f f case_x = Ok o1 /\
    row_chan_average RK 2 1 1 1 1 z z f f (averaged case_x o1) = Ok o2.
Proof.
  cbv zeta. assert (M : forall n m map, (forall k, (k < m)%nat -> exists i, (i < n)%nat /\ map i = k) -> merged n m map (Some (fun _ => 0%Z)) (Some (fun _ => 0%Z))).
  { intros n m map H. split; [auto|]. intros k Hk. split; [auto|]. split; [discriminate|]. intros A. destruct (H k Hk) as (i & Hi & E). exact (A i Hi E). }
  split; [|split].
  - apply M. intros k Hk. exists (2 * k)%nat. split; [lia|]. destruct k as [|[|k]]; [reflexivity|reflexivity|lia].
  - apply M. intros k Hk. exists 0%nat. split; lia.
  - eexists. eexists. split; cbn; reflexivity.
Qed.
Example case_channels : channel_mapper 7 2 = (fst (channel_mapper 7 2), 4%nat) /\ snd (channel_mapper 4 3) = 2%nat /\ snd (channel_mapper 7 6) = 2%nat.
Proof. repeat split. Qed.
