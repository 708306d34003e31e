(* Properties C01-C10: unique values and the averaging row/channel maps.
   Vocabulary: AvgSpec.v.  The row map theorems hold for ANY arithmetic whose
   comparison is a strict total order (so for IEEE floats without NaN); those
   about bin widths are over exact rationals. *)
From Coq Require Import Sorting.Sorted QArith QArith.Qcanon.
From Verif Require Import Prelude PreludeFacts AvgModel AvgSpec QcArith QcFacts
     AvgProofs3 AvgProofs4.
Close Scope Qc_scope. Close Scope Q_scope.
Open Scope nat_scope.

(* ------------------------------------------------------------------ C01 *)
Theorem C01_unique {A} (lt neq : A -> A -> bool) :
  order lt -> (forall x y, neq x y = true <-> x <> y) ->
  forall n data us ids inv counts,
  unique_internal lt neq n data = (us, ids, inv, counts) ->
  StronglySorted (fun x y => lt x y = true) us
  /\ (forall x, In x us <-> exists i, i < n /\ data i = x)
  /\ (forall i, i < n -> nth_error us (inv i) = Some (data i))
  /\ length ids = length us
  /\ (forall k p u, nth_error ids k = Some p -> nth_error us k = Some u ->
        p < n /\ data p = u /\ forall q, q < p -> data q <> u)
  /\ length counts = length us
  /\ (forall k u c, nth_error us k = Some u -> nth_error counts k = Some c ->
        count_is n (fun i => data i = u) c).
Proof. exact (unique_internal_full lt neq). Qed.
Print Assumptions C01_unique.

Theorem C01_unique_baselines : forall n ant1 ant2 us ids inv counts,
  int32_col n ant1 -> int32_col n ant2 ->
  unique_baselines n ant1 ant2 = (us, ids, inv, counts) ->
  NoDup us
  /\ (forall p, In p us <-> exists i, i < n /\ (ant1 i, ant2 i) = p)
  /\ (forall i, i < n -> nth_error us (inv i) = Some (ant1 i, ant2 i))
  /\ length ids = length us
  /\ (forall k p u, nth_error ids k = Some p -> nth_error us k = Some u ->
        p < n /\ (ant1 p, ant2 p) = u /\ forall q, q < p -> (ant1 q, ant2 q) <> u)
  /\ length counts = length us
  /\ (forall k u c, nth_error us k = Some u -> nth_error counts k = Some c ->
        count_is n (fun i => (ant1 i, ant2 i) = u) c).
Proof. exact unique_baselines_spec. Qed.
Print Assumptions C01_unique_baselines.

Example C01_example :
  let '(us, ids, inv, counts) :=
    unique_internal Z.ltb zneqb 6 (of_list 0%Z [5; 3; 5; 7; 3; 5]%Z) in
  (us, ids, to_list 6 inv, counts)
  = ([3; 5; 7]%Z, [1; 0; 3], [1; 0; 1; 2; 0; 1], [2; 3; 1]).
Proof. vm_compute. reflexivity. Qed.
Example C01_order_Z : order Z.ltb /\ (forall x y, zneqb x y = true <-> x <> y).
Proof. split; [exact Zltb_order|exact zneqb_spec]. Qed.

(* A concrete table: two baselines, 7 rows in scrambled order, one time missing on
   the second baseline, four rows flagged. *)
Definition q (z : Z) : Qc := Q2Qc (inject_Z z).
Definition demo_big : Qc := q 1000.
Definition demo_F := QcF demo_big.
Definition demo_time : arr Qc := of_list (q 0) (map q [2; 0; 1; 0; 3; 1; 3]%Z).
Definition demo_int : arr Qc := fun _ => q 1.
Definition demo_ant1 : arr Z := of_list 0%Z [0; 0; 0; 0; 0; 0; 0]%Z.
Definition demo_ant2 : arr Z := of_list 0%Z [1; 1; 1; 2; 1; 2; 2]%Z.
Definition demo_flag : arr Z := of_list 0%Z [1; 1; 0; 1; 0; 2; 1]%Z.
Notation demo_out :=
  (row_mapper demo_F 7 demo_time demo_int demo_ant1 demo_ant2 (Some demo_flag) (q 2)).

Lemma demo_int32 : int32_col 7 demo_ant1 /\ int32_col 7 demo_ant2.
Proof.
  split; intros i Hi; do 7 (destruct i as [|i]; [vm_compute; split; congruence|]); lia.
Qed.
Lemma demo_sentinel : sentinel_above demo_F 7 demo_time.
Proof.
  apply QcF_sentinel. intros i Hi.
  do 7 (destruct i as [|i]; [apply Qc_ltb_lt; vm_compute; reflexivity|]). lia.
Qed.
(* rows 1, 2 (baseline 0-1) and rows 3, 5 (baseline 0-2) are averaged together *)
Example demo_result : exists out, demo_out = Ok out /\
  rm_out_rows _ out = 5 /\
  to_list 7 (rm_map _ out) = [2; 0; 0; 1; 3; 1; 4] /\
  to_list 5 (rm_time _ out) =
     [Q2Qc (1 # 2); Q2Qc (1 # 2); q 2; q 3; q 3] /\
  to_list 5 (rm_interval _ out) = [q 2; q 2; q 1; q 1; q 1] /\
  exists fr, rm_flag_row _ out = Some fr /\ to_list 5 fr = [0; 1; 1; 0; 1]%Z.
Proof.
  destruct demo_out as [out|] eqn:E; [|exfalso; vm_compute in E; discriminate].
  exists out. split; [reflexivity|].
  assert (X : (match demo_out with
               | Ok o => (rm_out_rows _ o, to_list 7 (rm_map _ o), to_list 5 (rm_time _ o),
                          to_list 5 (rm_interval _ o),
                          match rm_flag_row _ o with Some f => to_list 5 f | None => [] end)
               | Raise _ => (0, [], [], [], []) end) =
     (5, [2; 0; 0; 1; 3; 1; 4], [Q2Qc (1 # 2); Q2Qc (1 # 2); q 2; q 3; q 3],
      [q 2; q 2; q 1; q 1; q 1], [0; 1; 1; 0; 1]%Z)).
  { vm_compute. reflexivity. }
  rewrite E in X.
  apply pair_equal_spec in X. destruct X as [X X5].
  apply pair_equal_spec in X. destruct X as [X X4].
  apply pair_equal_spec in X. destruct X as [X X3].
  apply pair_equal_spec in X. destruct X as [X1 X2].
  split; [exact X1|]. split; [exact X2|]. split; [exact X3|]. split; [exact X4|].
  destruct (rm_flag_row demo_F out) as [f|] eqn:Ef; [|discriminate X5].
  exists f. split; [reflexivity|exact X5].
Qed.

(* ------------------------------------------------------------------ C02 *)
Theorem C02_row_map_total F (OK : arith_ok F) n time interval ant1 ant2 flag_row secs :
  int32_col n ant1 -> int32_col n ant2 -> sentinel_above F n time ->
  rows_distinct n time ant1 ant2 ->
  exists out, row_mapper F n time interval ant1 ant2 flag_row secs = Ok out /\
    (forall i, i < n -> rm_map F out i < rm_out_rows F out) /\
    (forall k, k < rm_out_rows F out -> exists i, i < n /\ rm_map F out i = k).
Proof.
  intros H1 H2 HS HD.
  destruct (proj2 (row_mapper_ok_iff F OK n time interval ant1 ant2 flag_row secs H1 H2 HS) HD)
    as [out E].
  exists out. split; [exact E|].
  exact (rm_total F OK n time interval ant1 ant2 flag_row secs out H1 H2 HS E).
Qed.
Print Assumptions C02_row_map_total.
Example C02_hypotheses :
  arith_ok demo_F /\ int32_col 7 demo_ant1 /\ int32_col 7 demo_ant2 /\
  sentinel_above demo_F 7 demo_time /\ rows_distinct 7 demo_time demo_ant1 demo_ant2.
Proof.
  split; [apply QcF_ok|]. split; [apply demo_int32|]. split; [apply demo_int32|].
  split; [exact demo_sentinel|].
  apply (row_mapper_ok_iff demo_F (QcF_ok _) 7 demo_time demo_int demo_ant1 demo_ant2
           (Some demo_flag) (q 2)); [apply demo_int32|apply demo_int32|exact demo_sentinel|].
  destruct demo_result as [out [E _]]. exists out. exact E.
Qed.

(* ------------------------------------------------------------------ C03 *)
Theorem C03_duplicates_rejected F (OK : arith_ok F) n time interval ant1 ant2 flag_row secs :
  int32_col n ant1 -> int32_col n ant2 -> sentinel_above F n time ->
  (row_mapper F n time interval ant1 ant2 flag_row secs = Raise ValueError <->
   exists i j, i < n /\ j < n /\ i <> j /\ time i = time j /\
               ant1 i = ant1 j /\ ant2 i = ant2 j).
Proof.
  exact (row_mapper_raises_iff F OK n time interval ant1 ant2 flag_row secs).
Qed.
Print Assumptions C03_duplicates_rejected.
(* no other exception escapes *)
Theorem C03_only_value_error F (OK : arith_ok F) n time interval ant1 ant2 flag_row secs e :
  int32_col n ant1 -> int32_col n ant2 -> sentinel_above F n time ->
  row_mapper F n time interval ant1 ant2 flag_row secs = Raise e -> e = ValueError.
Proof.
  intros H1 H2 HS E.
  destruct (rows_distinct_dec F OK n time ant1 ant2) as [D|D].
  - apply (row_mapper_ok_iff F OK n time interval ant1 ant2 flag_row secs H1 H2 HS) in D.
    destruct D as [out D]. congruence.
  - apply (row_mapper_raises_iff F OK n time interval ant1 ant2 flag_row secs H1 H2 HS) in D.
    congruence.
Qed.
Print Assumptions C03_only_value_error.
Example C03_example :
  row_mapper demo_F 3 (of_list (q 0) (map q [1; 2; 1]%Z)) demo_int
             (fun _ => 4%Z) (fun _ => 9%Z) None (q 2) = Raise ValueError.
Proof. vm_compute. reflexivity. Qed.

(* ------------------------------------------------------------------ C04 *)
Theorem C04_no_baseline_mixing F (OK : arith_ok F) n time interval ant1 ant2 flag_row secs out :
  int32_col n ant1 -> int32_col n ant2 -> sentinel_above F n time ->
  row_mapper F n time interval ant1 ant2 flag_row secs = Ok out ->
  (forall i j, i < n -> j < n -> rm_map F out i = rm_map F out j ->
     ant1 i = ant1 j /\ ant2 i = ant2 j) /\
  (forall i m j, i < n -> m < n -> j < n ->
     same_baseline ant1 ant2 i m -> same_baseline ant1 ant2 m j ->
     ltb F (time m) (time i) = false -> ltb F (time j) (time m) = false ->
     rm_map F out i = rm_map F out j -> rm_map F out m = rm_map F out i).
Proof.
  intros H1 H2 HS E. split.
  - exact (rm_baseline F OK n time interval ant1 ant2 flag_row secs out H1 H2 HS E).
  - exact (rm_contig F OK n time interval ant1 ant2 flag_row secs out H1 H2 HS E).
Qed.
Print Assumptions C04_no_baseline_mixing.
Example C04_example : exists out, demo_out = Ok out /\
  rm_map _ out 1 = rm_map _ out 2 /\ rm_map _ out 1 <> rm_map _ out 3.
Proof.
  destruct demo_result as [out [E [_ [M _]]]]. exists out. split; [exact E|].
  injection M as M0 M1 M2 M3 M4 M5 M6. rewrite M1, M2, M3. split; [reflexivity|discriminate].
Qed.

(* ------------------------------------------------------------------ C05 *)
Theorem C05_time_ordered F (OK : arith_ok F) n time interval ant1 ant2 flag_row secs out :
  int32_col n ant1 -> int32_col n ant2 -> sentinel_above F n time ->
  row_mapper F n time interval ant1 ant2 flag_row secs = Ok out ->
  (forall k1 k2, k1 < k2 -> k2 < rm_out_rows F out ->
     ltb F (rm_time F out k2) (rm_time F out k1) = false) /\
  (forall i j, i < n -> j < n -> rm_map F out i < rm_map F out j ->
     rm_time F out (rm_map F out i) = rm_time F out (rm_map F out j) ->
     ~ same_baseline ant1 ant2 i j ->
     (0 <= ant1 i)%Z -> (0 <= ant1 j)%Z ->
     (ant2 i < ant2 j \/ (ant2 i = ant2 j /\ ant1 i < ant1 j))%Z).
Proof.
  intros H1 H2 HS E.
  exact (rm_sorted F OK n time interval ant1 ant2 flag_row secs out H1 H2 HS E).
Qed.
Print Assumptions C05_time_ordered.
(* in the demo, output rows 0 and 1 tie in time and belong to baselines (0,1), (0,2) *)
Example C05_example : exists out, demo_out = Ok out /\
  rm_time _ out 0 = rm_time _ out 1 /\ rm_map _ out 1 = 0 /\ rm_map _ out 3 = 1 /\
  demo_ant2 1 = 1%Z /\ demo_ant2 3 = 2%Z.
Proof.
  destruct demo_result as [out [E [_ [M [T _]]]]]. exists out. split; [exact E|].
  injection M as M0 M1 M2 M3 M4 M5 M6. injection T as T0 T1 T2 T3 T4.
  repeat split; congruence.
Qed.

(* ------------------------------------------------------------------ C06 *)
Theorem C06_time_mean_interval_sum F (OK : arith_ok F) n time interval ant1 ant2 flag_row secs out :
  int32_col n ant1 -> int32_col n ant2 -> sentinel_above F n time ->
  row_mapper F n time interval ant1 ant2 flag_row secs = Ok out ->
  forall k, k < rm_out_rows F out ->
    exists l, rows_by_time F n time (fun i => rm_map F out i = k) l /\ l <> [] /\
      rm_time F out k = col_mean F time l /\ rm_interval F out k = col_sum F interval l.
Proof.
  intros H1 H2 HS E.
  exact (rm_mean F OK n time interval ant1 ant2 flag_row secs out H1 H2 HS E).
Qed.
Print Assumptions C06_time_mean_interval_sum.

(* The docstring (lines 73-77, 92-94) says flagged rows do not contribute to a bin
   that also holds unflagged rows.  They do: a bin with an unflagged and a flagged
   row whose averaged time is not the unflagged row's time. *)
Theorem C06_flagged_rows_excluded_refuted :
  exists n time interval ant1 ant2 fr secs out i j k,
    int32_col n ant1 /\ int32_col n ant2 /\ sentinel_above demo_F n time /\
    row_mapper demo_F n time interval ant1 ant2 (Some fr) secs = Ok out /\
    i < n /\ j < n /\ rm_map _ out i = k /\ rm_map _ out j = k /\
    (forall r, r < n -> rm_map _ out r = k -> r = i \/ r = j) /\
    fr i = 0%Z /\ fr j = 1%Z /\ rm_time _ out k <> time i.
Proof.
  exists 7, demo_time, demo_int, demo_ant1, demo_ant2, demo_flag, (q 2).
  destruct demo_result as [out [E [_ [M [T _]]]]].
  exists out, 2, 1, 0.
  split; [apply demo_int32|]. split; [apply demo_int32|]. split; [exact demo_sentinel|].
  split; [exact E|].
  injection M as M0 M1 M2 M3 M4 M5 M6. injection T as T0 _.
  split; [lia|]. split; [lia|]. split; [exact M2|]. split; [exact M1|]. split.
  - intros r Hr Em.
    destruct r as [|r]; [congruence|]. destruct r as [|r]; [tauto|]. destruct r as [|r]; [tauto|].
    do 4 (destruct r as [|r]; [congruence|]). lia.
  - split; [reflexivity|]. split; [reflexivity|].
    rewrite T0. vm_compute. discriminate.
Qed.
Print Assumptions C06_flagged_rows_excluded_refuted.

(* ------------------------------------------------------------------ C07 *)
Theorem C07_row_flag_iff_all F (OK : arith_ok F) n time interval ant1 ant2 fr secs out :
  int32_col n ant1 -> int32_col n ant2 -> sentinel_above F n time ->
  row_mapper F n time interval ant1 ant2 (Some fr) secs = Ok out ->
  rm_out_rows F out = 0 \/
  exists ofr, rm_flag_row F out = Some ofr /\
    forall k, k < rm_out_rows F out ->
      (ofr k = 0 \/ ofr k = 1)%Z /\
      (ofr k <> 0%Z <-> forall i, i < n -> rm_map F out i = k -> fr i <> 0%Z).
Proof.
  intros H1 H2 HS E.
  destruct (rm_flags F OK n time interval ant1 ant2 (Some fr) secs out H1 H2 HS E); auto.
Qed.
Print Assumptions C07_row_flag_iff_all.

(* ------------------------------------------------------------------ C08 *)
Theorem C08_bin_width big n time interval ant1 ant2 flag_row secs w out :
  int32_col n ant1 -> int32_col n ant2 -> sentinel_above (QcF big) n time ->
  (forall i, i < n -> interval i = w) ->
  row_mapper (QcF big) n time interval ant1 ant2 flag_row secs = Ok out ->
  forall i j, i < n -> j < n -> rm_map _ out i = rm_map _ out j -> (time i < time j)%Qc ->
    ((time j + w * Q2Qc (1 # 2)) - (time i - w * Q2Qc (1 # 2)) <= secs)%Qc.
Proof.
  intros H1 H2 HS Hw E.
  exact (rm_width big n time interval ant1 ant2 flag_row secs w out H1 H2 HS Hw E).
Qed.
Print Assumptions C08_bin_width.
(* the hypotheses hold of the demo table, whose rows 1 and 2 share a bin *)
Example C08_example : forall i, i < 7 -> demo_int i = q 1.
Proof. reflexivity. Qed.

(* Without a common interval the bound is false: below the bin of rows 1 and 2 runs
   from -35 to 17 although secs = 20. *)
Theorem C08_varying_interval_refuted :
  exists n time interval out i j,
    sentinel_above demo_F n time /\
    row_mapper demo_F n time interval (fun _ => 0%Z) (fun _ => 1%Z) None (q 20) = Ok out /\
    i < n /\ j < n /\ rm_map _ out i = rm_map _ out j /\
    (q 20 < row_end demo_F time interval j - row_start demo_F time interval i)%Qc.
Proof.
  pose (time := of_list (q 0) (map q [10; 15; 16]%Z)).
  pose (interval := of_list (q 0) (map q [20; 100; 2]%Z)).
  exists 3, time, interval.
  destruct (row_mapper demo_F 3 time interval (fun _ => 0%Z) (fun _ => 1%Z) None (q 20)) as [out|] eqn:E;
    [|exfalso; vm_compute in E; discriminate].
  exists out, 1, 2. split.
  { apply QcF_sentinel. intros i Hi.
    do 3 (destruct i as [|i]; [apply Qc_ltb_lt; vm_compute; reflexivity|]). lia. }
  split; [reflexivity|]. split; [lia|]. split; [lia|].
  assert (X : match row_mapper demo_F 3 time interval (fun _ => 0%Z) (fun _ => 1%Z) None (q 20) with
              | Ok o => Nat.eqb (rm_map _ o 1) (rm_map _ o 2) | _ => false end = true)
    by (vm_compute; reflexivity).
  rewrite E in X. split; [now apply Nat.eqb_eq|].
  apply Qc_ltb_lt. vm_compute. reflexivity.
Qed.
Print Assumptions C08_varying_interval_refuted.

(* ------------------------------------------------------------------ C09 *)
(* What the code does: a row joins an earlier row's bin exactly when its end lies
   within secs of the start of the EARLIEST row of its whole baseline (bin_low is
   not reset when a bin is closed). *)
Theorem C09_bin_opening_rule_partial F (OK : arith_ok F) n time interval ant1 ant2 flag_row secs out :
  int32_col n ant1 -> int32_col n ant2 -> sentinel_above F n time ->
  row_mapper F n time interval ant1 ant2 flag_row secs = Ok out ->
  forall r0 r, r < n -> earliest F n time ant1 ant2 r0 r -> r0 <> r ->
   ((exists p, p < n /\ rm_map F out p = rm_map F out r /\ ltb F (time p) (time r) = true) <->
    ltb F secs (sub F (row_end F time interval r) (row_start F time interval r0)) = false).
Proof. exact (rm_open_rule F OK n time interval ant1 ant2 flag_row secs out). Qed.
Print Assumptions C09_bin_opening_rule_partial.

(* ... so with a common interval only the first bin of a baseline averages anything *)
Theorem C79_only_first_bin_averages big n time interval ant1 ant2 flag_row secs w out :
  int32_col n ant1 -> int32_col n ant2 -> sentinel_above (QcF big) n time ->
  (forall i, i < n -> interval i = w) ->
  row_mapper (QcF big) n time interval ant1 ant2 flag_row secs = Ok out ->
  forall i j r0, i < n -> j < n -> i <> j -> rm_map _ out i = rm_map _ out j ->
    earliest (QcF big) n time ant1 ant2 r0 i -> rm_map _ out i = rm_map _ out r0.
Proof.
  intros H1 H2 HS Hw E.
  exact (rm_first_bin_only big n time interval ant1 ant2 flag_row secs w out H1 H2 HS Hw E).
Qed.
Print Assumptions C79_only_first_bin_averages.

(* The documented greedy rule is false: six unit samples at 0..5 with secs = 2; the
   row at time 3 would fit with the row at time 2 but gets a bin of its own. *)
Theorem C09_greedy_refuted :
  exists n time interval ant1 ant2 secs out i j,
    int32_col n ant1 /\ int32_col n ant2 /\ sentinel_above demo_F n time /\
    row_mapper demo_F n time interval ant1 ant2 None secs = Ok out /\
    i < n /\ j < n /\ same_baseline ant1 ant2 i j /\ (time i < time j)%Qc /\
    rm_map _ out i <> rm_map _ out j /\
    (* no row in between, and the union of i's bin with j spans at most secs *)
    (forall k, k < n -> ~ (time i < time k /\ time k < time j)%Qc) /\
    (forall k, k < n -> rm_map _ out k = rm_map _ out i ->
       (row_end demo_F time interval j - row_start demo_F time interval k <= secs)%Qc).
Proof.
  pose (time := of_list (q 0) (map q [0; 1; 2; 3; 4; 5]%Z)).
  exists 6, time, (fun _ => q 1), (fun _ => 0%Z), (fun _ => 1%Z), (q 2).
  destruct (row_mapper demo_F 6 time (fun _ => q 1) (fun _ => 0%Z) (fun _ => 1%Z) None (q 2))
    as [out|] eqn:E; [|exfalso; vm_compute in E; discriminate].
  assert (X : match row_mapper demo_F 6 time (fun _ => q 1) (fun _ => 0%Z) (fun _ => 1%Z) None (q 2) with
              | Ok o => to_list 6 (rm_map _ o) | _ => [] end = [0; 0; 1; 2; 3; 4])
    by (vm_compute; reflexivity).
  rewrite E in X. injection X as M0 M1 M2 M3 M4 M5.
  exists out, 2, 3.
  split; [intros i _; vm_compute; split; congruence|].
  split; [intros i _; vm_compute; split; congruence|].
  split. { apply QcF_sentinel. intros i Hi.
    do 6 (destruct i as [|i]; [apply Qc_ltb_lt; vm_compute; reflexivity|]). lia. }
  split; [reflexivity|]. split; [lia|]. split; [lia|]. split; [split; reflexivity|].
  split; [apply Qc_ltb_lt; vm_compute; reflexivity|]. split; [rewrite M2, M3; discriminate|].
  split.
  - intros k Hk [A B]. apply Qc_ltb_lt in A, B.
    do 6 (destruct k as [|k]; [vm_compute in A, B; discriminate|]). lia.
  - intros k Hk Em. apply Qc_ltb_ge. rewrite M2 in Em.
    do 6 (destruct k as [|k]; [first [congruence|vm_compute; reflexivity]|]). lia.
Qed.
Print Assumptions C09_greedy_refuted.

(* ------------------------------------------------------------------ C10 *)
Theorem C10_channel_map nchan bs : 0 < bs ->
  let '(m, nb) := channel_mapper nchan bs in
  (forall c, c < nchan -> m c = c / bs) /\
  nb = (nchan + bs - 1) / bs /\
  (forall c, c < nchan -> m c < nb) /\
  (forall b, S b < nb -> count_is nchan (fun c => m c = b) bs) /\
  (forall b, S b = nb -> exists k, 1 <= k <= bs /\ count_is nchan (fun c => m c = b) k).
Proof. exact (channel_mapper_spec nchan bs). Qed.
Print Assumptions C10_channel_map.
Example C10_example : let '(m, nb) := channel_mapper 7 3 in
  (to_list 7 m, nb) = ([0; 0; 0; 1; 1; 1; 2], 3).
Proof. vm_compute. reflexivity. Qed.
