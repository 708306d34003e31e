From Verif Require Import Prelude PreludeFacts LoopFacts CRing CField PredictModel PredictSpec CalModel CalSpec PredictProofs CalProofs CalProofs2 RebaseModel RebaseSpec.
Open Scope nat_scope.

Lemma zmin_S : forall n (x : arr Z), 0 < n -> zmin (S n) x = Z.min (zmin n x) (x n).
Proof.
  intros n x N. unfold zmin. replace (S n - 1) with (S (n - 1)) by lia. rewrite for_S. replace (S (n - 1)) with n by lia. reflexivity.
Qed.
Lemma zmin_1 : forall x : arr Z, zmin 1 x = x 0.
Proof. reflexivity. Qed.
Lemma upd_same {A} : forall (x : arr A) i v, upd x i v i = v.
Proof. intros. unfold upd. now rewrite Nat.eqb_refl. Qed.
Lemma upd_other {A} : forall (x : arr A) i v j, j <> i -> upd x i v j = x j.
Proof. intros x i v j H. unfold upd. destruct (Nat.eqb_spec j i); [lia|reflexivity]. Qed.

(* the ranges of the first t bins of an array that stays as y *)
Definition good (y : arr Z) (cnt : arr nat) (t : nat) : list (Z * Z) := map (fun k => (y k, (y k + Z.of_nat (cnt k))%Z)) (seq 0 t).
Lemma good_S : forall y cnt t, good y cnt (S t) = good y cnt t ++ [(y t, (y t + Z.of_nat (cnt t))%Z)].
Proof. intros. unfold good. rewrite seq_S, map_app. reflexivity. Qed.
Lemma good_right : forall n tbi tmin cnt th, is_min n tbi tmin -> t_ranges th = good (fun t => (tbi t - tmin)%Z) cnt n -> right_rows n tbi tmin cnt th.
Proof.
  intros n tbi tmin cnt th M E. split; [now rewrite E; unfold good; rewrite map_length, seq_length|].
  intros t r T. rewrite E. unfold good. set (f := fun k : nat => ((tbi k - tmin)%Z, (tbi k - tmin + Z.of_nat (cnt k))%Z)).
  rewrite (nth_indep _ (0, 0)%Z (f 0)) by (rewrite map_length, seq_length; exact T).
  rewrite (map_nth f), seq_nth by exact T. unfold f. cbn [fst snd Nat.add]. pose proof (proj2 M t T). unfold in_bin. split.
  - intros H0. exists (Z.to_nat r). split; [lia|]. lia.
  - intros (k & -> & K). exact K.
Qed.

Lemma sys_step_eq : forall n cnt (s : system) i, sys_step n cnt s i = (fst (step n cnt (fst s) (snd s i)), upd (snd s) i (snd (step n cnt (fst s) (snd s i)))).
Proof. intros. unfold sys_step. destruct (step n cnt (fst s) (snd s i)). reflexivity. Qed.

Section Still.
  (* an array whose minimum is zero is not changed by anyone *)
  Context (n : nat) (cnt : arr nat) (y : arr Z) (N : 0 < n) (M : is_min n y 0%Z).
  Definition still (th : thread) : Prop :=
    match t_pc th with
    | PMin i m => i <= n /\ (i = 0 \/ m = zmin i y) /\ t_ranges th = []
    | PSubR i m => m = 0%Z /\ t_ranges th = []
    | PSubW i m v => m = 0%Z /\ v = y i /\ i < n /\ t_ranges th = []
    | PUse t => t <= n /\ t_ranges th = good y cnt t
    | PUse2 t lo => t < n /\ lo = y t /\ t_ranges th = good y cnt t
    | PDone => t_ranges th = good y cnt n
    end.
  Lemma still_step : forall x th, (forall t, t < n -> x t = y t) -> still th ->
    (forall t, t < n -> fst (step n cnt x th) t = y t) /\ still (snd (step n cnt x th)).
  Proof.
    intros x [p l] X S. unfold still in S. cbn in S. unfold step. destruct p; cbn [t_pc t_ranges] in *.
    - destruct S as (I & D & E). destruct (Nat.ltb_spec i n); unfold still; cbn [fst snd t_pc t_ranges]; (split; [exact X|]).
      + split; [lia|]. split; [|exact E]. right. destruct i as [|i]; cbn [Nat.eqb].
        * rewrite X by lia. reflexivity.
        * destruct D as [D|D]; [lia|]. rewrite zmin_S by lia. now rewrite D, X by lia.
      + split; [|exact E]. destruct D as [D|D]; [lia|]. replace i with n in D by lia.
        rewrite D. apply (is_min_unique n y); [now apply zmin_is_min|exact M].
    - destruct S as (-> & E). destruct (Nat.ltb_spec i n); unfold still; cbn [fst snd t_pc t_ranges]; (split; [exact X|]).
      + repeat split; try assumption. now apply X.
      + split; [lia|exact E].
    - destruct S as (-> & -> & I & E). cbn. split; [|split; [reflexivity|exact E]].
      intros t T. unfold upd. destruct (Nat.eqb_spec t i) as [->|]; [lia|now apply X].
    - destruct S as (T & E). destruct (Nat.ltb_spec t n); cbn; (split; [exact X|]).
      + repeat split; try assumption. now apply X.
      + replace n with t by lia. exact E.
    - destruct S as (T & -> & E). unfold still; cbn [fst snd t_pc t_ranges]. split; [exact X|]. split; [lia|]. rewrite good_S, E, X by exact T. reflexivity.
    - split; [exact X|exact S].
  Qed.
  Lemma still_exec : forall sched s, (forall t, t < n -> fst s t = y t) -> (forall i, still (snd s i)) ->
    (forall t, t < n -> fst (exec n cnt sched s) t = y t) /\ (forall i, still (snd (exec n cnt sched s) i)).
  Proof.
    induction sched as [|i sched IH]; intros s X S; [now split|].
    cbn [exec fold_left]. apply IH; rewrite sys_step_eq; pose proof (still_step (fst s) (snd s i) X (S i)) as H; cbn [fst snd].
    - exact (proj1 H).
    - intros j. unfold upd. destruct (Nat.eqb j i); [exact (proj2 H)|apply S].
  Qed.
End Still.

Lemma fresh_still : forall n cnt y, still n cnt y fresh.
Proof. intros. cbn. repeat split; [lia|now left]. Qed.

Lemma rebased_safe : forall n cnt tbi sched i, 0 < n -> is_min n tbi 0%Z ->
  finished (snd (exec n cnt sched (start tbi)) i) ->
  right_rows n tbi 0 cnt (snd (exec n cnt sched (start tbi)) i) /\ forall t, t < n -> fst (exec n cnt sched (start tbi)) t = tbi t.
Proof.
  intros n cnt tbi sched i N M F.
  destruct (still_exec n cnt tbi N M sched (start tbi)) as [X S]; [reflexivity|intros j; apply fresh_still|].
  split; [|exact X]. apply good_right; [exact M|]. specialize (S i). unfold still in S. rewrite F in S. rewrite S.
  unfold good. apply map_ext. intros k. f_equal; lia.
Qed.

(* ---------- one thread takes several steps ---------- *)
Section Alone.
  Context (n : nat) (cnt : arr nat).
  Fixpoint steps (k : nat) (x : arr Z) (th : thread) : arr Z * thread :=
    match k with 0 => (x, th) | S k => let '(x', th') := step n cnt x th in steps k x' th' end.
  Lemma steps_app : forall a b x th, steps (a + b) x th = let '(x', th') := steps a x th in steps b x' th'.
  Proof. induction a as [|a IH]; intros b x th; [reflexivity|]. cbn [Nat.add steps]. destruct (step n cnt x th). apply IH. Qed.
  Lemma exec_repeat : forall i k s, fst (exec n cnt (repeat i k) s) = fst (steps k (fst s) (snd s i)) /\
      snd (exec n cnt (repeat i k) s) i = snd (steps k (fst s) (snd s i)) /\
      forall j, j <> i -> snd (exec n cnt (repeat i k) s) j = snd s j.
  Proof.
    intros i k. induction k as [|k IH]; intros s.
    - cbn. destruct s. repeat split.
    - cbn [repeat exec fold_left steps]. set (s' := sys_step n cnt s i). destruct (IH s') as (A & B & C).
      unfold exec in *. assert (E : fst s' = fst (step n cnt (fst s) (snd s i)) /\ snd s' i = snd (step n cnt (fst s) (snd s i)) /\ forall j, j <> i -> snd s' j = snd s j).
      { unfold s'. rewrite sys_step_eq. cbn [fst snd]. split; [reflexivity|]. split; [apply upd_same|]. intros j J. now apply upd_other. }
      destruct E as (E1 & E2 & E3). rewrite E1, E2 in A, B. destruct (step n cnt (fst s) (snd s i)) as [x' th'] eqn:Q. cbn [fst snd] in *.
      split; [|split; [exact B|]].
      + exact A.
      + intros j J. rewrite C by exact J. now apply E3.
  Qed.
  Lemma min_steps : forall k i x m l, i + k <= n -> (i = 0 \/ m = zmin i x) -> 0 < k ->
    steps k x {| t_pc := PMin i m; t_ranges := l |} = (x, {| t_pc := PMin (i + k) (zmin (i + k) x); t_ranges := l |}).
  Proof.
    induction k as [|k IH]; intros i x m l I D K; [lia|]. cbn [steps step t_pc t_ranges].
    destruct (Nat.ltb_spec i n); [|lia]. set (m' := if Nat.eqb i 0 then x i else Z.min m (x i)).
    assert (E : m' = zmin (S i) x).
    { unfold m'. destruct i as [|i]; [reflexivity|]. cbn [Nat.eqb]. destruct D as [D|D]; [lia|]. rewrite zmin_S by lia. now rewrite D. }
    destruct k as [|k].
    - cbn. rewrite E. replace (i + 1) with (S i) by lia. reflexivity.
    - rewrite IH by (try lia; now right). replace (S i + S k) with (i + S (S k)) by lia. reflexivity.
  Qed.
  Lemma to_min : forall x, 0 < n -> steps (n + 1) x fresh = (x, {| t_pc := PSubR 0 (zmin n x); t_ranges := [] |}).
  Proof.
    intros x N. rewrite steps_app. unfold fresh. rewrite min_steps by (try lia; now left). cbn [Nat.add steps step t_pc t_ranges].
    now rewrite (Nat.ltb_irrefl n).
  Qed.
  Lemma sub_steps : forall k i x m l, i + k = n ->
    steps (2 * k + 1) x {| t_pc := PSubR i m; t_ranges := l |} = steps 0 (fst (steps (2 * k + 1) x {| t_pc := PSubR i m; t_ranges := l |})) {| t_pc := PUse 0; t_ranges := l |} /\
    forall t, fst (steps (2 * k + 1) x {| t_pc := PSubR i m; t_ranges := l |}) t = (if (Nat.leb i t && Nat.ltb t n)%bool then (x t - m)%Z else x t).
  Proof.
    induction k as [|k IH]; intros i x m l I.
    - change (2 * 0 + 1) with 1. cbn [steps step t_pc t_ranges]. destruct (Nat.ltb_spec i n); [lia|]. cbn [fst]. split; [reflexivity|]. intros t. destruct (Nat.leb_spec i t), (Nat.ltb_spec t n); try lia; reflexivity.
    - replace (2 * S k + 1) with (S (S (2 * k + 1))) by lia. cbn [steps step t_pc t_ranges]. destruct (Nat.ltb_spec i n); [|lia].
      destruct (IH (S i) (upd x i (x i - m)%Z) m l ltac:(lia)) as [A B]. split; [exact A|]. intros t. rewrite B. unfold upd.
      destruct (Nat.leb_spec (S i) t), (Nat.leb_spec i t), (Nat.ltb_spec t n), (Nat.eqb_spec t i); cbn; try lia; subst; reflexivity.
  Qed.
  Lemma use_steps : forall k t x l, t + k = n ->
    steps (2 * k + 1) x {| t_pc := PUse t; t_ranges := l |} = (x, {| t_pc := PDone; t_ranges := l ++ map (fun j => (x j, (x j + Z.of_nat (cnt j))%Z)) (seq t k) |}).
  Proof.
    induction k as [|k IH]; intros t x l I.
    - change (2 * 0 + 1) with 1. cbn [steps step t_pc t_ranges seq map]. destruct (Nat.ltb_spec t n); [lia|]. now rewrite app_nil_r.
    - replace (2 * S k + 1) with (S (S (2 * k + 1))) by lia. cbn [steps step t_pc t_ranges]. destruct (Nat.ltb_spec t n); [|lia].
      cbn [steps step t_pc t_ranges]. rewrite IH by lia. rewrite <- app_assoc. reflexivity.
  Qed.
End Alone.

(* ---------- the first thread rebases before the others start ---------- *)
Lemma first_rebases : forall n cnt tbi tmin i sched j, 0 < n -> is_min n tbi tmin ->
  finished (snd (exec n cnt (repeat i (steps_to_rebase n) ++ sched) (start tbi)) j) ->
  right_rows n tbi tmin cnt (snd (exec n cnt (repeat i (steps_to_rebase n) ++ sched) (start tbi)) j).
Proof.
  intros n cnt tbi tmin i sched j N M F. apply good_right; [exact M|]. revert F. unfold exec. rewrite fold_left_app.
  fold (exec n cnt (repeat i (steps_to_rebase n)) (start tbi)). set (s := exec n cnt (repeat i (steps_to_rebase n)) (start tbi)).
  destruct (exec_repeat n cnt i (steps_to_rebase n) (start tbi)) as (A & B & C). fold s in A, B, C. cbn [start fst snd] in A, B, C.
  unfold steps_to_rebase in A, B. rewrite steps_app, to_min in A, B by exact N.
  destruct (sub_steps n cnt n 0 tbi (zmin n tbi) [] ltac:(lia)) as [D E].
  assert (Z : zmin n tbi = tmin) by (apply (is_min_unique n tbi); [now apply zmin_is_min|exact M]).
  set (y := fun t => (tbi t - tmin)%Z).
  assert (MY : is_min n y 0%Z).
  { destruct M as [[r [R Q]] M]. split; [exists r; split; [exact R|]; unfold y; lia|]. intros t T. unfold y. specialize (M t T). lia. }
  assert (X : forall t, t < n -> fst s t = y t).
  { intros t T. rewrite A, E, Z. destruct (Nat.ltb_spec t n); [reflexivity|lia]. }
  assert (ST : forall k, still n cnt y (snd s k)).
  { intros k. destruct (Nat.eq_dec k i) as [->|K].
    - rewrite B, D. cbn. split; [lia|reflexivity].
    - rewrite C by exact K. apply fresh_still. }
  intros F. destruct (still_exec n cnt y N MY sched s X ST) as [_ S]. specialize (S j). unfold still, exec in S. rewrite F in S. exact S.
Qed.

(* ---------- how many steps a thread takes ---------- *)
Definition steps_left (n : nat) (p : pc) : nat :=
  match p with
  | PMin i _ => (n - i) + 1 + (2 * n + 1) + (2 * n + 1)
  | PSubR i _ => 2 * (n - i) + 1 + (2 * n + 1)
  | PSubW i _ _ => 2 * (n - S i) + 2 + (2 * n + 1)
  | PUse t => 2 * (n - t) + 1
  | PUse2 t _ => 2 * (n - S t) + 2
  | PDone => 0
  end.
Lemma left_step : forall n cnt x th, steps_left n (t_pc (snd (step n cnt x th))) = steps_left n (t_pc th) - 1.
Proof.
  intros n cnt x [p l]. unfold step. destruct p; cbn [t_pc t_ranges]; try (destruct (Nat.ltb_spec i n)); try (destruct (Nat.ltb_spec t n)); cbn [snd t_pc steps_left]; lia.
Qed.
Lemma left_exec : forall n cnt sched s i,
  steps_left n (t_pc (snd (exec n cnt sched s) i)) = steps_left n (t_pc (snd s i)) - count_occ Nat.eq_dec sched i.
Proof.
  induction sched as [|j sched IH]; intros s i; [cbn; lia|]. cbn [exec fold_left count_occ].
  fold (exec n cnt sched (sys_step n cnt s j)). rewrite IH. rewrite sys_step_eq. pose proof (left_step n cnt (fst s) (snd s j)) as H.
  cbn [fst snd]. unfold upd. destruct (Nat.eq_dec j i) as [->|J].
  - rewrite Nat.eqb_refl, H. lia.
  - destruct (Nat.eqb_spec i j); [lia|reflexivity].
Qed.
Lemma finished_left : forall n th, finished th <-> steps_left n (t_pc th) = 0.
Proof. intros n th. unfold finished. destruct (t_pc th); cbn [steps_left]; split; intros H; try discriminate; try lia; reflexivity. Qed.
Lemma always_finishes : forall n cnt tbi sched i,
  finished (snd (exec n cnt sched (start tbi)) i) <-> steps_in_all n <= count_occ Nat.eq_dec sched i.
Proof.
  intros. rewrite (finished_left n), left_exec. cbn. unfold steps_in_all, steps_to_rebase. lia.
Qed.

(* ---------- the race ---------- *)
Lemma exec_app : forall n cnt a b s, exec n cnt (a ++ b) s = exec n cnt b (exec n cnt a s).
Proof. intros. unfold exec. apply fold_left_app. Qed.
Lemma rounds_S : forall K k, rounds (S K) k = rounds K k ++ repeat K k.
Proof. intros. unfold rounds. rewrite seq_S, flat_map_app. cbn. now rewrite app_nil_r. Qed.

Lemma round_min : forall n cnt tbi K, 0 < n -> let s := exec n cnt (rounds K (n + 1)) (start tbi) in
  fst s = tbi /\ (forall i, i < K -> snd s i = {| t_pc := PSubR 0 (zmin n tbi); t_ranges := [] |}) /\ (forall i, K <= i -> snd s i = fresh).
Proof.
  intros n cnt tbi K N. induction K as [|K IH].
  - cbn. repeat split; lia.
  - cbn zeta in *. rewrite rounds_S, exec_app. set (s := exec n cnt (rounds K (n + 1)) (start tbi)) in *. destruct IH as (A & B & C).
    destruct (exec_repeat n cnt K (n + 1) s) as (D & E & G). rewrite (C K) in D, E by lia. rewrite A, to_min in D, E by exact N.
    split; [exact D|]. split; intros i I.
    + destruct (Nat.eq_dec i K) as [->|J]; [exact E|]. rewrite G by exact J. apply B. lia.
    + rewrite G by lia. apply C. lia.
Qed.
Lemma round_sub : forall n cnt m s K M, (forall i, i < K -> snd s i = {| t_pc := PSubR 0 m; t_ranges := [] |}) -> M <= K ->
  let s' := exec n cnt (rounds M (2 * n + 1)) s in
  (forall t, t < n -> fst s' t = (fst s t - Z.of_nat M * m)%Z) /\
  (forall i, i < M -> snd s' i = {| t_pc := PUse 0; t_ranges := [] |}) /\ (forall i, M <= i -> snd s' i = snd s i).
Proof.
  intros n cnt m s K M H. induction M as [|M IH]; intros L.
  - cbn. repeat split; intros; try lia.
  - cbn zeta in *. rewrite rounds_S, exec_app. set (s1 := exec n cnt (rounds M (2 * n + 1)) s) in *. destruct (IH ltac:(lia)) as (A & B & C).
    destruct (exec_repeat n cnt M (2 * n + 1) s1) as (D & E & G). rewrite (C M), (H M) in D, E by lia.
    destruct (sub_steps n cnt n 0 (fst s1) m [] ltac:(lia)) as [P Q].
    split; [|split; intros i I].
    + intros t T. rewrite D, Q. destruct (Nat.ltb_spec t n); [|lia]. cbn [andb Nat.leb]. rewrite A by exact T. lia.
    + destruct (Nat.eq_dec i M) as [->|J]; [rewrite E, P; reflexivity|]. rewrite G by exact J. apply B. lia.
    + rewrite G by lia. apply C. lia.
Qed.
Lemma round_use : forall n cnt s K M, (forall i, i < K -> snd s i = {| t_pc := PUse 0; t_ranges := [] |}) -> M <= K ->
  let s' := exec n cnt (rounds M (2 * n + 1)) s in
  fst s' = fst s /\ (forall i, i < M -> snd s' i = {| t_pc := PDone; t_ranges := good (fst s) cnt n |}) /\ (forall i, M <= i -> snd s' i = snd s i).
Proof.
  intros n cnt s K M H. induction M as [|M IH]; intros L.
  - cbn. repeat split; intros; lia.
  - cbn zeta in *. rewrite rounds_S, exec_app. set (s1 := exec n cnt (rounds M (2 * n + 1)) s) in *. destruct (IH ltac:(lia)) as (A & B & C).
    destruct (exec_repeat n cnt M (2 * n + 1) s1) as (D & E & G). rewrite (C M), (H M), A, use_steps in D, E by lia.
    split; [exact D|]. split; intros i I.
    + destruct (Nat.eq_dec i M) as [->|J]; [rewrite E; reflexivity|]. rewrite G by exact J. apply B. lia.
    + rewrite G by lia. apply C. lia.
Qed.
Lemma race : forall n cnt tbi tmin K i, 0 < n -> is_min n tbi tmin -> i < K ->
  let th := snd (exec n cnt (racing K n) (start tbi)) i in
  finished th /\ length (t_ranges th) = n /\
  forall t, t < n -> nth t (t_ranges th) (0, 0)%Z = ((tbi t - Z.of_nat K * tmin)%Z, (tbi t - Z.of_nat K * tmin + Z.of_nat (cnt t))%Z).
Proof.
  intros n cnt tbi tmin K i N M I. unfold racing. cbn zeta. rewrite !exec_app.
  destruct (round_min n cnt tbi K N) as (A & B & _). set (s1 := exec n cnt (rounds K (n + 1)) (start tbi)) in *.
  destruct (round_sub n cnt (zmin n tbi) s1 K K B (le_n K)) as (C & D & _). set (s2 := exec n cnt (rounds K (2 * n + 1)) s1) in *.
  destruct (round_use n cnt s2 K K D (le_n K)) as (_ & E & _). rewrite (E i I).
  assert (Z : zmin n tbi = tmin) by (apply (is_min_unique n tbi); [now apply zmin_is_min|exact M]).
  split; [reflexivity|]. cbn [t_ranges]. split; [unfold good; now rewrite map_length, seq_length|].
  intros t T. unfold good. set (f := fun k : nat => (fst s2 k, (fst s2 k + Z.of_nat (cnt k))%Z)).
  rewrite (nth_indep _ (0, 0)%Z (f 0)) by (rewrite map_length, seq_length; exact T).
  rewrite (map_nth f), seq_nth by exact T. unfold f. cbn [Nat.add]. rewrite C by exact T. now rewrite A, Z.
Qed.
Lemma race_wrong : forall n cnt tbi tmin K i, is_min n tbi tmin -> tmin <> 0%Z -> 1 < K -> i < K -> (exists t, t < n /\ 0 < cnt t) ->
  exists sched, finished (snd (exec n cnt sched (start tbi)) i) /\ ~ right_rows n tbi tmin cnt (snd (exec n cnt sched (start tbi)) i).
Proof.
  intros n cnt tbi tmin K i M Z HK I (t & T & P). exists (racing K n).
  destruct (race n cnt tbi tmin K i ltac:(lia) M I) as (F & _ & R). split; [exact F|]. intros [_ W]. specialize (R t T).
  pose proof (proj2 M t T) as Q.
  pose proof (W t (tbi t - tmin)%Z T) as W1. pose proof (W t (tbi t - tmin + Z.of_nat (cnt t) - 1)%Z T) as W2. rewrite R in W1, W2. cbn [fst snd] in W1, W2.
  destruct W1 as [_ W1]. destruct W2 as [_ W2]. unfold in_bin in W1, W2.
  specialize (W1 ltac:(exists (Z.to_nat (tbi t - tmin)); lia)). specialize (W2 ltac:(exists (Z.to_nat (tbi t - tmin + Z.of_nat (cnt t) - 1)); lia)).
  nia.
Qed.

(* ---------- the array that a computation leaves behind ---------- *)
Lemma left_block : forall chunks rb (tbi : arr Z), exists c, forall t, t < nth rb chunks 0 ->
  left_behind chunks tbi (off chunks rb + t) = (tbi (off chunks rb + t)%nat - c)%Z.
Proof.
  induction chunks as [|n cs IH]; intros rb tbi; [exists 0%Z; intros t T; destruct rb; cbn in T; lia|]. destruct rb as [|rb].
  - exists (zmin n tbi). intros t T. cbn [nth] in T. unfold off. cbn [firstn list_sum fold_right Nat.add left_behind]. destruct (Nat.ltb_spec t n); [reflexivity|lia].
  - destruct (IH rb (shift n tbi)) as (c & C). exists c. intros t T. cbn [nth] in T.
    assert (E : off (n :: cs) (S rb) = n + off cs rb) by reflexivity. rewrite E. cbn [left_behind].
    destruct (Nat.ltb_spec (n + off cs rb + t) n); [lia|]. replace (n + off cs rb + t - n) with (off cs rb + t) by lia.
    rewrite C by exact T. unfold shift. now rewrite Nat.add_assoc.
Qed.
Lemma runs_block : forall k chunks rb (tbi : arr Z), exists c, forall t, t < nth rb chunks 0 ->
  after_runs k chunks tbi (off chunks rb + t) = (tbi (off chunks rb + t)%nat - c)%Z.
Proof.
  intros k chunks rb tbi. induction k as [|k (c & C)].
  - exists 0%Z. intros. cbn. lia.
  - destruct (left_block chunks rb (after_runs k chunks tbi)) as (d & D). exists (c + d)%Z. intros t T.
    change (after_runs (S k) chunks tbi) with (left_behind chunks (after_runs k chunks tbi)). rewrite D, C by exact T. lia.
Qed.

Section Reuse.
  Context {F : fops} (L : flaws F).
  Theorem reuse n tbi tbc ant1 ant2 (g : gain_arr F) (m : model_arr F) mode tmin ch nant k :
    check_type (j_ndim g) (m_ndim m) VT_model = Ok mode ->
    0 < n -> is_min n tbi tmin -> bins_disjoint n tbi tmin tbc ->
    hd 0 (cc_jant ch) = nant -> hd 0 (cc_jdir ch) = j_dir g -> hd 0 (cc_mdir ch) = m_dir m ->
    list_sum (cc_chan ch) = m_chan m ->
    exists tbi' whole blocks, corrupt_vis n tbi tbc ant1 ant2 g m = Ok (tbi', whole) /\
      dask_corrupt_vis ch nant (after_runs k (cc_time ch) tbi) tbc ant1 ant2 g m = Ok blocks /\
      forall rb, chunk_aligned n tbi tmin tbc ch rb -> forall cb, exists btbi b, blocks rb cb = Ok (btbi, b) /\
        v_row b = nth rb (cc_row ch) 0 /\ v_chan b = nth cb (cc_chan ch) 0 /\ v_ndim b = v_ndim whole /\ v_corr b = v_corr whole /\
        forall r f, r < nth rb (cc_row ch) 0 -> f < nth cb (cc_chan ch) 0 ->
          jeq (mode_full mode) (m_corr m) (v_at b r f) (v_at whole (off (cc_row ch) rb + r) (off (cc_chan ch) cb + f)).
  Proof.
    intros Hc Hn Hm Hd G1 G2 G3 Hch.
    destruct (dask_corrupt n tbi tbc ant1 ant2 g m mode tmin ch nant Hc Hn Hm Hd G1 G2 G3 Hch) as (tbi' & whole & blocks & E & EB & H).
    exists tbi', whole. unfold dask_corrupt_vis, chunked_axis in *. rewrite Hc, G1, G2, G3, !Nat.eqb_refl in *. cbn [bind negb] in *.
    eexists. split; [exact E|]. split; [reflexivity|]. intros rb A cb. cbn beta.
    destruct (H rb A cb) as (b0 & b & Q & R1 & R2 & R3 & R4 & R5).
    apply (f_equal (fun x => match x with Ok y => y | Raise _ => blocks end)) in EB. cbn in EB. rewrite <- EB in Q. clear EB H.
    unfold chunk_aligned in A. set (nt := nth rb (cc_time ch) 0) in *. set (o := off (cc_time ch) rb) in *.
    assert (PB : 0 < nt) by exact (al_pos _ _ _ _ _ _ _ _ A).
    assert (MB : is_min nt (shift o tbi) (tmin + Z.of_nat (off (cc_row ch) rb))%Z) by exact (al_min _ _ _ _ _ _ _ _ A).
    assert (DB : bins_disjoint nt (shift o tbi) (tmin + Z.of_nat (off (cc_row ch) rb))%Z (shift o tbc)) by (eapply blk_disjoint; eassumption).
    destruct (runs_block k (cc_time ch) rb tbi) as (c & C). fold nt o in C.
    set (new := shift o (after_runs k (cc_time ch) tbi)).
    assert (CN : forall t, t < nt -> new t = (shift o tbi t - c)%Z) by (intros t T; unfold new, shift; now apply C).
    set (bm := (tmin + Z.of_nat (off (cc_row ch) rb))%Z) in *.
    assert (IB : forall t r, t < nt -> (in_bin new (bm - c) (shift o tbc) t r <-> in_bin (shift o tbi) bm (shift o tbc) t r)).
    { intros t r T. unfold in_bin. rewrite CN by exact T. lia. }
    assert (MN : is_min nt new (bm - c)%Z).
    { destruct MB as [[t [T1 T2]] MB]. split; [exists t; split; [exact T1|]; rewrite CN by exact T1; lia|]. intros s S1. rewrite CN by exact S1. specialize (MB s S1). lia. }
    assert (DN : bins_disjoint nt new (bm - c)%Z (shift o tbc)).
    { intros t t' r T T' B B'. apply (DB t t' r); try assumption; now apply IB. }
    destruct (corrupt_vis_spec L nt (shift o tbi) (shift o tbc) (shift (off (cc_row ch) rb) ant1) (shift (off (cc_row ch) rb) ant2)
      (blk_gain ch rb cb g) (blk_model ch rb cb m) mode bm Hc PB MB DB) as (t1 & v1 & E1 & _ & B1 & B2 & B3 & B4 & B5).
    destruct (corrupt_vis_spec L nt new (shift o tbc) (shift (off (cc_row ch) rb) ant1) (shift (off (cc_row ch) rb) ant2)
      (blk_gain ch rb cb g) (blk_model ch rb cb m) mode (bm - c)%Z Hc PB MN DN) as (t2 & v2 & E2 & _ & D1 & D2 & D3 & D4 & D5).
    rewrite Q in E1. apply (f_equal (fun x => match x with Ok y => snd y | Raise _ => v1 end)) in E1. cbn [snd] in E1. subst v1.
    exists t2, v2. split; [exact E2|]. rewrite D1, D2, D3, D4, <- B1, <- B2, <- B3, <- B4.
    do 4 (split; [assumption|]). intros r f Hr Hf. eapply jeq_trans; [|exact (R5 r f Hr Hf)].
    cbn [blk_model m_chan m_corr] in *. destruct (B5 r f Hf) as [B6 B7]. destruct (D5 r f Hf) as [D6 D7].
    destruct (bin_dec nt (shift o tbi) bm (shift o tbc) r) as [[t [Ht Hb]]|Hnone].
    - eapply jeq_trans; [exact (D6 t Ht (proj2 (IB t r Ht) Hb))|]. apply jeq_sym. exact (B6 t Ht Hb).
    - eapply jeq_trans; [|apply jeq_sym; exact (B7 Hnone)]. apply D7. intros t Ht X. exact (Hnone t Ht (proj1 (IB t r Ht) X)).
  Qed.
End Reuse.
