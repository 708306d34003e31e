(* the graph of the stream reduction *)
From Coq Require Import Reals Permutation.
From Verif Require Import Prelude PreludeFacts CRing CplxR NiftyModel NiftySpec.
Close Scope R_scope.
Open Scope nat_scope.

Definition last_of (c rb : nat) : option key := if Nat.eqb (rb mod c) 0 then None else Some (KGrid (rb - 1) 0).
Definition task_of (c rb : nat) : key * task := (KGrid rb 0, TGrid rb rb (rb, 0) (rb, 0) (last_of c rb)).
Definition tip (c n i : nat) : key := KGrid (Nat.min (i * c + c) n - 1) 0.

Lemma stream_tasks_map c : 0 < c -> forall n rb last, last = last_of c rb -> (forall j, rb < j < rb + n -> j mod c <> 0) -> stream_tasks rb n last = map (task_of c) (seq rb n).
Proof.
  intros Hc. induction n as [|n IH]; intros rb last Hl Hj; [reflexivity|]. cbn [stream_tasks seq map]. unfold task_of at 1. rewrite <- Hl. f_equal.
  destruct n as [|n]; [reflexivity|]. apply IH.
  - unfold last_of. destruct (Nat.eqb_spec (S rb mod c) 0) as [E|_]; [exfalso; apply (Hj (S rb)); [lia|exact E]|]. now replace (S rb - 1) with rb by lia.
  - intros j Hjj. apply Hj. lia.
Qed.
Lemma within c i j : 0 < c -> i * c < j < i * c + c -> j mod c <> 0.
Proof. intros Hc Hj. replace j with (j - i * c + i * c) by lia. rewrite Nat.mod_add by lia. rewrite Nat.mod_small by lia. lia. Qed.
Lemma seq_cat a n m : seq a (n + m) = seq a n ++ seq (a + n) m.
Proof. apply seq_app. Qed.
Lemma streams_map c n : 0 < c -> forall k, k * c < n + c ->
  flat_map (fun rb_start => stream_tasks rb_start (Nat.min (rb_start + c) n - rb_start) None) (map (fun i => i * c) (seq 0 k)) = map (task_of c) (seq 0 (Nat.min (k * c) n)).
Proof.
  intros Hc. induction k as [|k IH]; intros Hk; [reflexivity|]. rewrite seq_S, map_app, flat_map_app, IH by nia. cbn [map flat_map Nat.add]. rewrite app_nil_r.
  rewrite (stream_tasks_map c Hc).
  - rewrite (Nat.min_l (k * c) n) by nia. replace (Nat.min (S k * c) n) with (k * c + (Nat.min (k * c + c) n - k * c)) by nia. now rewrite seq_cat, map_app.
  - unfold last_of. now rewrite Nat.mod_mul by lia.
  - intros j Hj. apply (within c k); lia.
Qed.

(* the size of the streams *)
Lemma chunk_size n s : 0 < n -> (1 <= s)%Z -> exists c, row_block_chunks n s = Ok (Z.of_nat c) /\ 0 < c /\ (Z.of_nat n <= Z.of_nat c * s)%Z /\ ((Z.of_nat c - 1) * s < Z.of_nat n)%Z.
Proof.
  intros Hn Hs. unfold row_block_chunks. destruct (Z.eqb_spec s 0); [lia|]. set (q := ((Z.of_nat n + s - 1) / s)%Z).
  pose proof (Z.div_mod (Z.of_nat n + s - 1) s ltac:(lia)) as E. pose proof (Z.mod_pos_bound (Z.of_nat n + s - 1) s ltac:(lia)) as B. fold q in E.
  assert (Hq : (1 <= q)%Z) by nia. exists (Z.to_nat q). rewrite Z2Nat.id by lia. split; [reflexivity|]. split; [lia|]. split; nia.
Qed.
Lemma range_up n c : 0 < c -> range_step n (Z.of_nat c) = Ok (map (fun i => i * c) (seq 0 ((n + c - 1) / c))).
Proof. intros Hc. unfold range_step. destruct (Z.eqb_spec (Z.of_nat c) 0); [lia|]. destruct (Z.ltb_spec (Z.of_nat c) 0); [lia|]. now rewrite Nat2Z.id. Qed.
Lemma count_up n c : 0 < c -> (n + c - 1) / c * c < n + c /\ n <= (n + c - 1) / c * c.
Proof. intros Hc. pose proof (Nat.div_mod (n + c - 1) c ltac:(lia)). pose proof (Nat.mod_upper_bound (n + c - 1) c ltac:(lia)). nia. Qed.
Lemma graph_form n s : 0 < n -> (1 <= s)%Z -> exists c, row_block_chunks n s = Ok (Z.of_nat c) /\ 0 < c /\
  stream_dict n s = Ok (map (task_of c) (seq 0 n)) /\
  final_dict n s = Ok [(KSum 0 0, TSum (map (tip c n) (seq 0 ((n + c - 1) / c))))].
Proof.
  intros Hn Hs. destruct (chunk_size n s Hn Hs) as (c & E & Hc & _ & _). exists c. split; [exact E|]. split; [exact Hc|].
  unfold stream_dict, final_dict. rewrite E. cbn [bind]. rewrite range_up by exact Hc. cbn [bind]. rewrite Nat2Z.id. destruct (count_up n c Hc) as (C1 & C2). split.
  - f_equal. rewrite streams_map by lia. now rewrite Nat.min_r by lia.
  - now rewrite map_map.
Qed.
Lemma graph_ok n s : 0 < n -> (1 <= s)%Z -> exists c, 0 < c /\ graph n s = Ok (map (task_of c) (seq 0 n) ++ [(KSum 0 0, TSum (map (tip c n) (seq 0 ((n + c - 1) / c))))]).
Proof. intros Hn Hs. destruct (graph_form n s Hn Hs) as (c & _ & Hc & E1 & E2). exists c. split; [exact Hc|]. unfold graph. rewrite E1, E2. reflexivity. Qed.

(* what is read *)
Lemma flat_map_ext_in {A B} (f g : A -> list B) l : (forall x, In x l -> f x = g x) -> flat_map f l = flat_map g l.
Proof. induction l as [|x l IH]; intros H; [reflexivity|]. cbn. rewrite (H x (or_introl eq_refl)), IH; [reflexivity|]. intros y Hy. apply H. now right. Qed.
Lemma reads_run c n : 0 < c -> forall k, k * c < n + c ->
  Permutation (flat_map (fun rb => reads (snd (task_of c rb))) (seq 0 (Nat.min (k * c) n)) ++ map (tip c n) (seq 0 k)) (map (fun rb => KGrid rb 0) (seq 0 (Nat.min (k * c) n))).
Proof.
  intros Hc. induction k as [|k IH]; intros Hk; [constructor|]. specialize (IH ltac:(nia)).
  set (m := Nat.min (k * c + c) n - k * c). replace (Nat.min (S k * c) n) with (Nat.min (k * c) n + m) by (unfold m; nia).
  rewrite seq_cat, flat_map_app, map_app, seq_S, map_app. cbn [Nat.add map].
  replace (Nat.min (k * c) n) with (k * c) in * by nia.
  assert (X : flat_map (fun rb => reads (snd (task_of c rb))) (seq (k * c) m) ++ [tip c n k] = map (fun rb => KGrid rb 0) (seq (k * c) m)).
  { assert (Hm : 0 < m) by (unfold m; nia). unfold tip. replace (Nat.min (k * c + c) n - 1) with (k * c + (m - 1)) by (unfold m; nia).
    assert (Hmc : m <= c) by (unfold m; nia). clearbody m. destruct m as [|m]; [lia|]. clear Hm. replace (S m - 1) with m by lia. change (seq (k * c) (S m)) with (k * c :: seq (S (k * c)) m) at 1. rewrite (seq_S m), map_app. cbn [map]. f_equal.
    cbn [flat_map]. assert (L0 : last_of c (k * c) = None) by (unfold last_of; now rewrite Nat.mod_mul by lia).
    replace (reads (snd (task_of c (k * c)))) with (@nil key) by (unfold task_of; now rewrite L0). cbn [app].
    rewrite <- seq_shift, flat_map_concat_map, map_map, <- flat_map_concat_map.
    rewrite (flat_map_ext_in _ (fun rb => [KGrid rb 0])); [clear; induction (seq (k * c) m) as [|x l IHl]; cbn; [reflexivity|now rewrite IHl]|].
    intros x Hx. apply in_seq in Hx. unfold task_of, last_of. cbn [snd reads]. destruct (Nat.eqb_spec (S x mod c) 0) as [E|_]; [exfalso; apply (within c k (S x) Hc); [lia|exact E]|]. now replace (S x - 1) with x by lia. }
  rewrite <- X. rewrite <- IH. rewrite <- !app_assoc. apply Permutation_app_head. rewrite !app_assoc. apply Permutation_app_tail. apply Permutation_app_comm.
Qed.
Lemma consumed_once n s dsk : 0 < n -> (1 <= s)%Z -> graph n s = Ok dsk -> Permutation (all_reads dsk) (map (fun rb => KGrid rb 0) (seq 0 n)).
Proof.
  intros Hn Hs E. destruct (graph_ok n s Hn Hs) as (c & Hc & E'). rewrite E in E'. injection E' as ->. unfold all_reads. rewrite flat_map_app. cbn [flat_map snd reads]. rewrite app_nil_r.
  rewrite flat_map_concat_map, map_map, <- flat_map_concat_map. destruct (count_up n c Hc) as (C1 & C2). pose proof (reads_run c n Hc ((n + c - 1) / c) C1) as P. now rewrite Nat.min_r in P by lia.
Qed.
Lemma flat_map_single {A B} (g : A -> B) l : flat_map (fun x => [g x]) l = map g l.
Proof. induction l as [|x l IH]; cbn; [reflexivity|now rewrite IH]. Qed.
Lemma blocks_once n s dsk : 0 < n -> (1 <= s)%Z -> graph n s = Ok dsk -> all_blocks dsk = map (fun rb => (rb, rb, (rb, 0), (rb, 0))) (seq 0 n).
Proof.
  intros Hn Hs E. destruct (graph_ok n s Hn Hs) as (c & Hc & E'). rewrite E in E'. injection E' as ->. unfold all_blocks. rewrite flat_map_app. cbn [flat_map snd blocks]. rewrite app_nil_r.
  rewrite flat_map_concat_map, map_map, <- flat_map_concat_map. exact (flat_map_single (fun rb => (rb, rb, (rb, 0), (rb, 0))) (seq 0 n)).
Qed.

(* finding tasks *)
Lemma keqb_spec a b : reflect (a = b) (keqb a b).
Proof. destruct a as [i j|i j], b as [i' j'|i' j']; cbn; try (right; discriminate); destruct (Nat.eqb_spec i i'), (Nat.eqb_spec j j'); cbn; constructor; congruence. Qed.
Lemma find_grid c n rest : forall a rb, a <= rb < a + n -> find_task (map (task_of c) (seq a n) ++ rest) (KGrid rb 0) = Some (TGrid rb rb (rb, 0) (rb, 0) (last_of c rb)).
Proof.
  induction n as [|n IH]; intros a rb H; [lia|]. cbn [seq map app find_task task_of]. destruct (keqb_spec (KGrid a 0) (KGrid rb 0)) as [E|E]; [injection E as ->; reflexivity|].
  apply IH. assert (a <> rb) by congruence. lia.
Qed.
Lemma find_other c n rest k : forall a, (forall rb, a <= rb < a + n -> k <> KGrid rb 0) -> find_task (map (task_of c) (seq a n) ++ rest) k = find_task rest k.
Proof.
  induction n as [|n IH]; intros a H; [reflexivity|]. cbn [seq map app find_task task_of]. destruct (keqb_spec (KGrid a 0) k) as [E|E]; [exfalso; apply (H a); [lia|now symmetry]|].
  apply IH. intros rb Hrb. apply H. lia.
Qed.
