(* C103: the array of time bin indices is rebased in place and shared between the tasks of a chunked computation. *)
From Coq Require Import QArith Qcanon.
From Verif Require Import Prelude CRing CField PredictModel PredictSpec CalModel CalSpec CalProps RebaseModel RebaseSpec RebaseProofs.
Open Scope nat_scope.

(* the tasks of a chunk whose first row is row 0 (so the first chunk, and a whole computation): whatever the number of
   threads and the schedule, every task goes through the right rows and the array is not changed *)
Theorem C103_first_chunk : forall n cnt tbi sched i, 0 < n -> is_min n tbi 0%Z ->
  finished (snd (exec n cnt sched (start tbi)) i) ->
  right_rows n tbi 0 cnt (snd (exec n cnt sched (start tbi)) i) /\ forall t, t < n -> fst (exec n cnt sched (start tbi)) t = tbi t.
Proof. exact rebased_safe. Qed.

(* any chunk: if one task is through with its rebasing before the others start, every task goes through the right rows *)
Theorem C103_first_task_rebases : forall n cnt tbi tmin i sched j, 0 < n -> is_min n tbi tmin ->
  finished (snd (exec n cnt (repeat i (steps_to_rebase n) ++ sched) (start tbi)) j) ->
  right_rows n tbi tmin cnt (snd (exec n cnt (repeat i (steps_to_rebase n) ++ sched) (start tbi)) j).
Proof. exact first_rebases. Qed.

(* a task finishes when it has been given its number of steps, whatever the others do *)
Theorem C103_finishes : forall n cnt tbi sched i,
  finished (snd (exec n cnt sched (start tbi)) i) <-> steps_in_all n <= count_occ Nat.eq_dec sched i.
Proof. exact always_finishes. Qed.

(* a later chunk: K tasks that find the minimum before one of them subtracts it all go through rows that are K - 1 times
   the first row of the chunk too low *)
Theorem C103_race : forall n cnt tbi tmin K i, 0 < n -> is_min n tbi tmin -> i < K ->
  let th := snd (exec n cnt (racing K n) (start tbi)) i in
  finished th /\ length (t_ranges th) = n /\
  forall t, t < n -> nth t (t_ranges th) (0, 0)%Z = ((tbi t - Z.of_nat K * tmin)%Z, (tbi t - Z.of_nat K * tmin + Z.of_nat (cnt t))%Z).
Proof. exact race. Qed.

(* so with two or more tasks every later chunk (with at least one row) has a schedule in which any given task goes
   through wrong rows *)
Theorem C103_any_schedule_refuted : forall n cnt tbi tmin K i,
  is_min n tbi tmin -> tmin <> 0%Z -> 1 < K -> i < K -> (exists t, t < n /\ 0 < cnt t) ->
  exists sched, finished (snd (exec n cnt sched (start tbi)) i) /\ ~ right_rows n tbi tmin cnt (snd (exec n cnt sched (start tbi)) i).
Proof. exact race_wrong. Qed.

(* computing again, any number of times, with the array that the computations before have left behind and the same
   chunks gives the blocks of the whole result *)
Theorem C103_reuse_same_chunks : forall {F : fops}, flaws F ->
  forall n tbi tbc ant1 ant2 (g : gain_arr F) (m : model_arr F) mode tmin ch nant k,
  check_type (j_ndim g) (m_ndim m) VT_model = Ok mode ->
  0 < n -> is_min n tbi tmin -> bins_disjoint n tbi tmin tbc ->
  hd 0 (cc_jant ch) = nant -> hd 0 (cc_jdir ch) = j_dir g -> hd 0 (cc_mdir ch) = m_dir m ->
  list_sum (cc_chan ch) = m_chan m ->
  exists tbi' whole blocks, corrupt_vis n tbi tbc ant1 ant2 g m = Ok (tbi', whole) /\
    dask_corrupt_vis ch nant (after_runs k (cc_time ch) tbi) tbc ant1 ant2 g m = Ok blocks /\
    forall rb, chunk_aligned n tbi tmin tbc ch rb -> forall cb, exists btbi b, blocks rb cb = Ok (btbi, b) /\
      v_row b = nth rb (cc_row ch) 0 /\ v_chan b = nth cb (cc_chan ch) 0 /\ v_ndim b = v_ndim whole /\ v_corr b = v_corr whole /\
      forall r f, r < nth rb (cc_row ch) 0 -> f < nth cb (cc_chan ch) 0 ->
        jeq (mode_full mode) (m_corr m) (v_at b r f) (v_at whole (off (cc_row ch) rb + r) (off (cc_chan ch) cb + f)).
Proof. intros F L. exact (reuse L). Qed.

(* with other chunks it does not: after a computation with one time in each chunk, the whole computation gives zero for
   the rows of the second time *)
Theorem C103_reuse_other_chunks_refuted :
  exists n (tbi : arr Z) tbc ant1 ant2 (g : gain_arr GQ) (m : model_arr GQ) mode tmin ch r,
    check_type (j_ndim g) (m_ndim m) VT_model = Ok mode /\ 0 < n /\ is_min n tbi tmin /\ bins_disjoint n tbi tmin tbc /\
    list_sum (cc_time ch) = n /\ (forall rb, rb < length (cc_time ch) -> chunk_aligned n tbi tmin tbc ch rb) /\ r < m_row m /\
    match corrupt_vis n tbi tbc ant1 ant2 g m, corrupt_vis n (after_runs 1 (cc_time ch) tbi) tbc ant1 ant2 g m with
    | Ok (_, v), Ok (_, v') => v_at v r 0 0 0 <> (0 : GQ)%K /\ v_at v' r 0 0 0 = (0 : GQ)%K
    | _, _ => False
    end.
Proof.
  exists 2, cx_tbi, cx_tbc, cx_a1, cx_a2, cx_g, cx_m, FULL, 5%Z, cx_ch, 2.
  destruct ex_cal_hyps as (_ & H1 & H2 & H3 & _). split; [exact H1|]. split; [lia|]. split; [exact H2|]. split; [exact H3|].
  split; [reflexivity|]. split; [|split; [cbn; lia|]].
  - destruct ex_chunks as [A B]. intros [|[|rb]] H; [exact A|exact B|cbn in H; lia].
  - destruct (corrupt_vis 2 cx_tbi cx_tbc cx_a1 cx_a2 cx_g cx_m) as [[t v]|] eqn:E; [|discriminate E].
    destruct (corrupt_vis 2 (after_runs 1 (cc_time cx_ch) cx_tbi) cx_tbc cx_a1 cx_a2 cx_g cx_m) as [[t' v']|] eqn:E'; [|discriminate E'].
    apply (f_equal (fun x => match x with Ok (_, v) => v_at v 2 0 0 0 | Raise _ => (0 : GQ)%K end)) in E.
    apply (f_equal (fun x => match x with Ok (_, v) => v_at v 2 0 0 0 | Raise _ => (0 : GQ)%K end)) in E'. cbn beta iota in E, E'. rewrite <- E, <- E'. split.
    + intros H. apply (f_equal (fun x : GQ => this (q_re x))) in H. vm_compute in H. discriminate.
    + vm_compute. reflexivity.
Qed.

(* ---------- examples ---------- *)
(* a later chunk: two times with two and one rows, first row 5 *)
Example ex_rebase_hyps : is_min 2 cx_tbi 5%Z /\ (exists t, t < 2 /\ 0 < cx_tbc t).
Proof. split; [exact (proj1 (proj2 (proj2 ex_cal_hyps)))|]. exists 0. cbn. lia. Qed.
Example ex_first_chunk : is_min 2 (of_list 0%Z [0; 2]%Z) 0%Z.
Proof. split; [exists 0; split; [lia|reflexivity]|]. intros [|[|r]] H; cbn; lia. Qed.
(* one task after the other; two tasks in turn *)
Example ex_in_sequence : let s := exec 2 cx_tbc (rounds 2 (steps_in_all 2)) (start cx_tbi) in
  map (fun i => t_ranges (snd s i)) [0; 1] = [[(0, 2); (2, 3)]; [(0, 2); (2, 3)]]%Z.
Proof. reflexivity. Qed.
Example ex_race : let s := exec 2 cx_tbc (racing 2 2) (start cx_tbi) in
  map (fun i => t_ranges (snd s i)) [0; 1] = [[(-5, -3); (-3, -2)]; [(-5, -3); (-3, -2)]]%Z.
Proof. reflexivity. Qed.
(* in turn, one step each: the reads of the minimum interleave with nothing else, and each task overwrites the other's
   subtraction with the same value: the result is right by luck *)
Example ex_lockstep : let s := exec 2 cx_tbc (concat (repeat [0; 1] 13)) (start cx_tbi) in
  map (fun i => t_ranges (snd s i)) [0; 1] = [[(0, 2); (2, 3)]; [(0, 2); (2, 3)]]%Z.
Proof. reflexivity. Qed.
Example ex_left_behind : map (left_behind [1; 1] cx_tbi) [0; 1] = [0; 0]%Z.
Proof. reflexivity. Qed.

Print Assumptions C103_first_chunk.
Print Assumptions C103_first_task_rebases.
Print Assumptions C103_finishes.
Print Assumptions C103_race.
Print Assumptions C103_any_schedule_refuted.
Print Assumptions C103_reuse_same_chunks.
Print Assumptions C103_reuse_other_chunks_refuted.
