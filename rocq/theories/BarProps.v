(* C89: the estimating progress bar (africanus/util/dask_util.py). *)
From Coq Require Import String Ascii QArith QArith.Qcanon.
From Verif Require Import Prelude QcArith BarModel BarSpec BarProofs BarProofs2.
Close Scope string_scope. Close Scope Q_scope. Close Scope Qc_scope.
Open Scope nat_scope.

(* After any history of started and finished tasks every bin holds the number of its tasks in the graph, the number of its
   tasks that have finished and the time they took. *)
Theorem C89_counts : forall key (key_eqb : key -> key -> bool) (bin_of : key -> res string) dsk es b0 b s,
  (forall a b, key_eqb a b = true <-> a = b) ->
  start key bin_of dsk = Ok b0 -> handle_all key key_eqb bin_of b0 es = Ok b ->
  find_bin (data b) s = {| completed := finished_in key bin_of s (rev es); total := tasks_in key bin_of s dsk;
                           time_sum := spent_in key key_eqb bin_of s (rev es) |}.
Proof. intros. eapply counts; eauto. Qed.

(* A history is accepted exactly when every finished task was running; otherwise the callback raises KeyError. *)
Theorem C89_orderly : forall key (key_eqb : key -> key -> bool) (bin_of : key -> res string) dsk es b0,
  (forall a b, key_eqb a b = true <-> a = b) -> (forall k, exists s, bin_of k = Ok s) ->
  start key bin_of dsk = Ok b0 ->
  (orderly key key_eqb (rev es) -> exists b, handle_all key key_eqb bin_of b0 es = Ok b) /\
  (~ orderly key key_eqb (rev es) -> handle_all key key_eqb bin_of b0 es = Raise KeyError).
Proof. intros. eapply handled; eauto. Qed.

(* What is shown for a run of a graph at some time after the start. *)
Theorem C89_estimate : forall key (key_eqb : key -> key -> bool) (bin_of : key -> res string) dsk es b0 b bins elapsed width,
  (forall a b, key_eqb a b = true <-> a = b) ->
  run_of key key_eqb dsk es -> start key bin_of dsk = Ok b0 -> handle_all key key_eqb bin_of b0 es = Ok b ->
  NoDup bins -> (forall k, In k dsk -> exists s, In s bins /\ bin_of k = Ok s) -> (0 < elapsed)%Qc ->
  let done := length (finished key es) in
  let took := spent key key_eqb (rev es) in
  (done = 0 -> exists msg, turn elapsed width (data b) = Ok (0, 0%Qc, msg) /\
     d_percent msg = 0%Z /\ d_estimate msg = "???"%string /\ String.length (d_bar msg) = width) /\
  (0 < done -> took = 0%Qc -> turn elapsed width (data b) = Raise ZeroDivision) /\
  (0 < done -> took <> 0%Qc -> exists e msg, turn elapsed width (data b) = Ok (done, e, msg) /\
     e = (elapsed / took * qsum (needed_in key key_eqb bin_of dsk (rev es)) bins)%Qc /\
     (elapsed <= e)%Qc /\ (done = length dsk -> e = elapsed) /\
     d_elapsed msg = format_time elapsed /\ d_estimate msg = format_time e /\ String.length (d_bar msg) = width /\
     ((elapsed < q_of 10)%Qc -> d_percent msg = 0%Z) /\
     ((q_of 10 <= elapsed)%Qc -> exists n, n <= width /\
        d_bar msg = (repeat_char "#" n ++ repeat_char " " (width - n))%string /\
        rounds_down (Qc_of_nat width * (elapsed / e)) (Z.of_nat n) /\
        rounds_down (q_of 100 * (elapsed / e)) (d_percent msg) /\ (0 <= d_percent msg <= 100)%Z)).
Proof. intros. eapply estimates; eauto. Qed.

(* Times are shown in their two leading units. *)
Theorem C89_format : forall t, (0 <= t)%Qc ->
  ((t < q_of 60)%Qc -> format_time t = (fmt 5 t ++ "s")%string) /\
  ((q_of 60 <= t)%Qc -> (t < q_of 3600)%Qc -> exists hi lo, measures t 60 1 hi lo /\
     format_time t = (fmt 2 (q_of hi) ++ "m" ++ fmt 2 (t - q_of (60 * hi))%Qc ++ "s")%string) /\
  ((q_of 3600 <= t)%Qc -> (t < q_of 86400)%Qc -> exists hi lo, measures t 3600 60 hi lo /\
     format_time t = (fmt 2 (q_of hi) ++ "h" ++ fmt 2 (q_of lo) ++ "m")%string) /\
  ((q_of 86400 <= t)%Qc -> (t < q_of 604800)%Qc -> exists hi lo, measures t 86400 3600 hi lo /\
     format_time t = (fmt 2 (q_of hi) ++ "d" ++ fmt 2 (q_of lo) ++ "h")%string) /\
  ((q_of 604800 <= t)%Qc -> exists hi lo, measures t 604800 86400 hi lo /\
     format_time t = (fmt 2 (q_of hi) ++ "w" ++ fmt 2 (q_of lo) ++ "d")%string).
Proof. exact formats. Qed.

(* Numbers are shown as the nearest whole number, whole numbers as they are. *)
Theorem C89_numbers : forall w x, exists z, fmt w x = pad_left w (int_text z) /\
  (q_of z - Q2Qc (1 # 2) <= x)%Qc /\ (x <= q_of z + Q2Qc (1 # 2))%Qc /\ (forall n, x = q_of n -> z = n) /\
  w <= String.length (fmt w x).
Proof.
  intros w x. exists (round_even x). split; [reflexivity|]. destruct (rounding x) as [A B]. split; [exact A|]. split; [exact B|].
  split; [|apply pad_width]. intros n ->.
  assert (O : (this (q_of 1) == 1)%Q) by reflexivity.
  assert (X : (round_even (q_of n) < n + 1)%Z).
  { apply q_of_lt. rewrite q_of_plus. QcFacts.qc_norm. rewrite O. Lqa.lra. }
  assert (Y : (n < round_even (q_of n) + 1)%Z).
  { apply q_of_lt. rewrite q_of_plus. QcFacts.qc_norm. rewrite O. Lqa.lra. }
  Lia.lia.
Qed.

(* A time below a minute can be shown as 60 seconds. *)
Theorem C89_sixty_refuted : exists t, (0 <= t)%Qc /\ (t < q_of 60)%Qc /\ format_time t = "   60s"%string.
Proof. exists (Q2Qc (119 # 2)). split; [|split]; [discriminate|reflexivity|vm_compute; reflexivity]. Qed.

(* The estimate changes although no task has finished in between. *)
Theorem C89_steady_refuted : exists d e1 e2 width c1 c2 t1 t2 m1 m2,
  turn e1 width d = Ok (c1, t1, m1) /\ turn e2 width d = Ok (c2, t2, m2) /\ c1 = c2 /\ t1 <> t2.
Proof.
  exists [("a"%string, {| completed := 1; total := 2; time_sum := 1%Qc |})], (q_of 20), (q_of 30), 42.
  do 6 eexists. split; [vm_compute; reflexivity|]. split; [vm_compute; reflexivity|]. split; [reflexivity|].
  intros E. apply (f_equal this) in E. vm_compute in E. discriminate.
Qed.

(* Whatever the schedule, the sums shown are those of the bins at one moment. *)
Theorem C89_snapshot : forall key (key_eqb : key -> key -> bool) (bin_of : key -> res string) dsk w0 w w' size pos acc acc',
  initial key bin_of dsk w0 -> steps key key_eqb bin_of w0 w -> step key key_eqb bin_of w w' ->
  w_timer _ w = Walking size pos acc -> w_timer _ w' = Shown acc' -> acc' = all_bins (data (w_bar _ w')).
Proof. intros. eapply snapshot; eauto. Qed.

(* Whatever the schedule, the timer thread fails only when the computation has finished, or on tasks that took no time. *)
Theorem C89_dies : forall key (key_eqb : key -> key -> bool) (bin_of : key -> res string) dsk w0 w e,
  initial key bin_of dsk w0 -> steps key key_eqb bin_of w0 w -> w_timer _ w = Died e ->
  (e = RuntimeError /\ w_finished _ w = true) \/ e = ZeroDivision.
Proof. intros. eapply dies; eauto. Qed.

(* It does fail in this way: _finish clears the bins without the lock. *)
Theorem C89_finish_race_refuted : exists dsk w0 w,
  initial nat (fun _ => Ok "a"%string) dsk w0 /\ steps nat Nat.eqb (fun _ => Ok "a"%string) w0 w /\
  w_timer _ w = Died RuntimeError.
Proof.
  exists [0]. do 2 eexists. split; [eexists; split; [vm_compute; reflexivity|reflexivity]|]. split.
  - eapply steps_step; [eapply steps_step; [eapply steps_step; [eapply steps_step; [apply steps_refl|]|]|]|].
    + apply SWake; [now left|reflexivity].
    + apply SLock.
    + apply SFinish.
    + apply SChanged. discriminate.
  - reflexivity.
Qed.

Print Assumptions C89_counts. Print Assumptions C89_orderly. Print Assumptions C89_estimate. Print Assumptions C89_format.
Print Assumptions C89_numbers. Print Assumptions C89_sixty_refuted. Print Assumptions C89_steady_refuted.
Print Assumptions C89_snapshot. Print Assumptions C89_dies. Print Assumptions C89_finish_race_refuted.

(* ---------- the hypotheses are met ---------- *)
Definition ex_bin (k : nat) : res string := Ok (if Nat.even k then "even" else "odd")%string.
Definition ex_events : list (event nat) :=
  [Pre 0 (q_of 0); Pre 1 (q_of 0); Post 0 (q_of 2); Pre 2 (q_of 2); Post 1 (q_of 5)].
Example ex_start : exists b0 b, start nat ex_bin [0; 1; 2; 3] = Ok b0 /\ handle_all nat Nat.eqb ex_bin b0 ex_events = Ok b.
Proof. do 2 eexists. split; vm_compute; reflexivity. Qed.
Example ex_orderly : orderly nat Nat.eqb (rev ex_events) /\ ~ orderly nat Nat.eqb [Post 7 (q_of 1)].
Proof. split; [simpl; repeat split; discriminate|]. simpl. tauto. Qed.
Example ex_run : run_of nat Nat.eqb [0; 1; 2; 3] ex_events.
Proof.
  split; [repeat constructor; simpl; intuition discriminate|]. split; [repeat constructor; simpl; intuition discriminate|].
  split; [intros x; simpl; intuition|]. simpl. split; [intros t [= <-]; discriminate|]. split; [intros t [= <-]; discriminate|exact I].
Qed.
Example ex_bins : forall k, In k [0; 1; 2; 3] -> exists s, In s ["even"; "odd"]%string /\ ex_bin k = Ok s.
Proof. intros k _. unfold ex_bin. destruct (Nat.even k); eexists; simpl; eauto. Qed.
(* 2 + 5 seconds were spent on half of the tasks of each bin: after 20 s the estimate is 40 s *)
Example ex_shown : exists b0 b e msg, start nat ex_bin [0; 1; 2; 3] = Ok b0 /\ handle_all nat Nat.eqb ex_bin b0 ex_events = Ok b /\
  turn (q_of 20) 8 (data b) = Ok (2, e, msg) /\ this e = 40%Q /\ d_bar msg = "####    "%string /\ d_percent msg = 50%Z /\ d_estimate msg = "   40s"%string.
Proof. do 4 eexists. split; [vm_compute; reflexivity|]. split; [vm_compute; reflexivity|]. split; [vm_compute; reflexivity|]. repeat split. Qed.
Example ex_no_time : spent nat Nat.eqb (rev [Pre 0 (q_of 3); Post 0 (q_of 3)]) = 0%Qc. Proof. reflexivity. Qed.
Example ex_format : format_time (q_of 3725) = " 1h 2m"%string /\ format_time (q_of 90) = " 1m30s"%string /\
  format_time (q_of 1000000) = " 1w 4d"%string /\ format_time (q_of 100000) = " 1d 3h"%string. Proof. vm_compute. auto. Qed.
Example ex_keys : key_bin (KTuple [] "()"%string) = Raise IndexError /\ key_bin (KBytes None) = Raise ValueError. Proof. split; reflexivity. Qed.
(* a walk that ends normally *)
Example ex_walk : exists w0 w w' acc, initial nat ex_bin [0; 1] w0 /\ steps nat Nat.eqb ex_bin w0 w /\ step nat Nat.eqb ex_bin w w' /\
  w_timer _ w = Walking 2 2 acc /\ w_timer _ w' = Shown acc.
Proof.
  do 4 eexists. split; [eexists; split; [vm_compute; reflexivity|reflexivity]|]. split.
  - eapply steps_step; [eapply steps_step; [eapply steps_step; [eapply steps_step; [apply steps_refl|]|]|]|].
    + apply SWake; [now left|reflexivity].
    + apply SLock.
    + eapply SNext; reflexivity.
    + eapply SNext; reflexivity.
  - split.
    + eapply (SEnd _ _ _ _ _ _ _ _ (q_of 1) 42); [reflexivity|reflexivity|vm_compute; reflexivity].
    + split; reflexivity.
Qed.
