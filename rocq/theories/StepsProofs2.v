From Coq Require Import Reals Lra Lia Permutation Sorting.Sorted.
From Verif Require Import Prelude PreludeFacts AvgModel AvgModel2 AvgSpec AvgSpec2 AvgProofs AvgProofs2 AvgProofs3 AvgProofs4 AvgProofs5 AvgProofs6 AvgProofs7 RavgModel StepsSpec StepsProofs.
Open Scope R_scope.

(* ---------- only the maps of the rows and channels that are there matter ---------- *)
Lemma average_ext n nchan ncorr orows ochans rmap rmap' cmap cmap' fr o x :
  (forall i, (i < n)%nat -> rmap i = rmap' i) -> (forall ch, (ch < nchan)%nat -> cmap ch = cmap' ch) ->
  row_chan_average RK n nchan ncorr orows ochans rmap cmap fr o x = row_chan_average RK n nchan ncorr orows ochans rmap' cmap' fr o x.
Proof.
  intros Hr Hc. unfold row_chan_average. f_equal. unfold accumulate. apply for_ext. intros i s Hi. rewrite (Hr i Hi). destruct (flags_match fr o i (rmap' i)); [|reflexivity].
  apply for_ext. intros ch s' Hch. apply for_ext. intros co s'' _. rewrite (Hc ch Hch). reflexivity.
Qed.
Lemma bins_twice a b nchan : (0 < a)%nat -> (0 < b)%nat ->
  let '(m1, k1) := channel_mapper nchan a in let '(m2, k2) := channel_mapper k1 b in let '(m, k) := channel_mapper nchan (a * b) in
  k2 = k /\ (forall ch, (ch < nchan)%nat -> (m1 ch < k1)%nat /\ m2 (m1 ch) = m ch).
Proof.
  intros Ha Hb. pose proof (channel_mapper_spec nchan a Ha) as S1. destruct (channel_mapper nchan a) as [m1 k1]. destruct S1 as (D1 & K1 & B1 & _).
  pose proof (channel_mapper_spec k1 b Hb) as S2. destruct (channel_mapper k1 b) as [m2 k2]. destruct S2 as (D2 & K2 & _).
  pose proof (channel_mapper_spec nchan (a * b) ltac:(nia)) as S3. destruct (channel_mapper nchan (a * b)) as [m k]. destruct S3 as (D3 & K3 & _).
  split.
  - rewrite K2, K3, K1. rewrite <- Nat.div_div by lia. f_equal.
    replace (nchan + a * b - 1)%nat with (nchan + a - 1 + (b - 1) * a)%nat by nia. rewrite Nat.div_add by lia. lia.
  - intros ch H. split; [now apply B1|]. rewrite D2 by now apply B1. rewrite D1, D3 by exact H. apply Nat.div_div; lia.
Qed.
Lemma merged_id n m map f o : merged n m map f o -> merged m m (fun i => i) o o.
Proof.
  destruct f as [f|], o as [o|]; cbn; try tauto. intros [_ H]. split; [intros i Hi; apply H; exact Hi|].
  intros k Hk. split; [apply H; exact Hk|]. split; [intros e i _ ->; exact e|]. intros e. now apply e.
Qed.
Lemma channels_twice a b n nchan ncorr m rmap fr0 fr1 x ws out1 out2 : (0 < a)%nat -> (0 < b)%nat ->
  (forall i, (i < n)%nat -> (rmap i < m)%nat) -> merged n m rmap fr0 fr1 -> in_wspec RK x = Some ws ->
  (forall i ch c, (i < n)%nat -> (ch < nchan)%nat -> (c < ncorr)%nat -> 0 <= ws i ch c) ->
  let '(m1, k1) := channel_mapper nchan a in let '(m2, k2) := channel_mapper k1 b in let '(m12, k) := channel_mapper nchan (a * b) in
  row_chan_average RK n nchan ncorr m k1 rmap m1 fr0 fr1 x = Ok out1 ->
  row_chan_average RK m k1 ncorr m k2 (fun i => i) m2 fr1 fr1 (averaged x out1) = Ok out2 ->
  k2 = k /\ exists out, row_chan_average RK n nchan ncorr m k rmap m12 fr0 fr1 x = Ok out /\
    forall r f c, (r < m)%nat -> (f < k)%nat -> (c < ncorr)%nat -> same_cell x (out2 r f c) (out r f c).
Proof.
  intros Ha Hb Rm Mg W W0. pose proof (bins_twice a b nchan Ha Hb) as B. destruct (channel_mapper nchan a) as [m1 k1]. destruct (channel_mapper k1 b) as [m2 k2].
  destruct (channel_mapper nchan (a * b)) as [m12 k]. destruct B as [-> B]. intros E1 E2. split; [reflexivity|].
  destruct (steps_total n nchan ncorr m k1 m k rmap m1 (fun i => i) m2 fr0 fr1 fr1 x out1 out2 Rm (fun ch H => proj1 (B ch H)) Mg (merged_id _ _ _ _ _ Mg) E1 E2) as [out E].
  pose proof (steps_cells n nchan ncorr m k1 m k rmap m1 (fun i => i) m2 fr0 fr1 fr1 x ws out1 out2 Rm (fun ch H => proj1 (B ch H)) Mg (merged_id _ _ _ _ _ Mg) W W0 E1 E2 out E) as S.
  exists out. split; [|exact S]. rewrite <- E. apply average_ext; [reflexivity|]. intros ch H. symmetry. apply B. exact H.
Qed.

(* ---------- the channels themselves ---------- *)
Lemma chan_sum_tot nchan cmap col b : chan_sum RK nchan cmap col b = tot col (filter (fun ch => Nat.eqb (cmap ch) b) (seq 0 nchan)).
Proof. rewrite chan_sum_eq. apply (lsum_R (A := nat)). Qed.
Definition bin nchan (cmap : arr nat) b := filter (fun ch => Nat.eqb (cmap ch) b) (seq 0 nchan).
Lemma in_bin nchan cmap b ch : In ch (bin nchan cmap b) <-> (ch < nchan)%nat /\ cmap ch = b.
Proof. unfold bin. rewrite filter_In, in_seq, Nat.eqb_eq. intuition lia. Qed.
Lemma bin_nodup nchan cmap b : NoDup (bin nchan cmap b). Proof. apply NoDup_filter, seq_NoDup. Qed.
Lemma bin_twice nchan k1 m1 m2 m f : (forall ch, (ch < nchan)%nat -> (m1 ch < k1)%nat /\ m2 (m1 ch) = m ch) ->
  Permutation (bin nchan m f) (flat_map (bin nchan m1) (bin k1 m2 f)).
Proof.
  intros B. apply (flat_perm (bin nchan m1) m1).
  - apply bin_nodup.
  - intros; apply bin_nodup.
  - intros p c _ H. now apply in_bin in H.
  - apply bin_nodup.
  - intros c. rewrite in_bin. split.
    + intros [Hc Em]. exists (m1 c). rewrite !in_bin. destruct (B c Hc) as [B1 B2]. rewrite B2. tauto.
    + intros (p & Hp & Hc). apply in_bin in Hp, Hc. destruct Hc as [Hc Ec], Hp as [Hp Ep]. split; [exact Hc|]. rewrite <- (proj2 (B c Hc)), Ec. exact Ep.
Qed.
Lemma flat_len {A B} (g : A -> list B) l k : (forall p, In p l -> length (g p) = k) -> length (flat_map g l) = (k * length l)%nat.
Proof. induction l as [|a l IH]; intros H; [cbn; lia|]. cbn [flat_map]. rewrite app_length, IH, (H a (or_introl eq_refl)) by (intros; apply H; now right). cbn [length]. lia. Qed.
Lemma widths_twice nchan a b col f : (0 < a)%nat -> (0 < b)%nat ->
  let '(m1, k1) := channel_mapper nchan a in let '(m2, _) := channel_mapper k1 b in let '(m, _) := channel_mapper nchan (a * b) in
  chan_sum RK k1 m2 (chan_sum RK nchan m1 col) f = chan_sum RK nchan m col f.
Proof.
  intros Ha Hb. pose proof (bins_twice a b nchan Ha Hb) as B. destruct (channel_mapper nchan a) as [m1 k1]. destruct (channel_mapper k1 b) as [m2 k2].
  destruct (channel_mapper nchan (a * b)) as [m k]. destruct B as [_ B]. rewrite !chan_sum_tot.
  rewrite (tot_perm _ _ _ (bin_twice nchan k1 m1 m2 m f B)), tot_flat. apply tot_ext. intros p _. apply chan_sum_tot.
Qed.
Lemma freq_mean nchan ochans cmap col b : (b < ochans)%nat -> chan_freq_mean RK nchan ochans cmap col b = tot col (bin nchan cmap b) / INR (length (bin nchan cmap b)).
Proof.
  intros Hb. destruct (chan_average_spec RK nchan ochans cmap (Some col) None None None) as [S _]. destruct (S b Hb) as (l & [Srt L] & F & _).
  destruct (F col eq_refl) as (o & E & V). cbn in E. injection E as <-. rewrite V. cbn [fdivn RK rounded_cols]. rewrite (lsum_R (A := nat)).
  assert (P : Permutation l (bin nchan cmap b)).
  { apply NoDup_Permutation; [|apply bin_nodup|intros x; rewrite in_bin; apply L].
    clear - Srt. induction Srt as [|x l _ IH Fo]; constructor; [|exact IH]. intros Hin. rewrite Forall_forall in Fo. specialize (Fo x Hin). unfold Nat.lt in Fo. lia. }
  rewrite (tot_perm _ _ _ P), (Permutation_length P). reflexivity.
Qed.
Lemma bin_full nchan a p : (0 < a)%nat -> Nat.modulo nchan a = 0%nat -> (p < snd (channel_mapper nchan a))%nat -> length (bin nchan (fst (channel_mapper nchan a)) p) = a.
Proof.
  intros Ha Hm Hp. pose proof (channel_mapper_spec nchan a Ha) as S1. destruct (channel_mapper nchan a) as [m1 k1]. cbn [fst snd] in *. destruct S1 as (D1 & K1 & _ & _).
  assert (N : nchan = (a * (nchan / a))%nat) by (pose proof (Nat.div_mod nchan a ltac:(lia)); lia). set (q := (nchan / a)%nat) in N.
  assert (K : k1 = q). { rewrite K1, N. replace (a * q + a - 1)%nat with (a - 1 + q * a)%nat by nia. rewrite Nat.div_add by lia. rewrite Nat.div_small by lia. lia. }
  assert (P : Permutation (bin nchan m1 p) (seq (p * a) a)).
  { apply NoDup_Permutation; [apply bin_nodup|apply seq_NoDup|]. intros c. rewrite in_bin, in_seq. split.
    - intros [Hc E]. rewrite D1 in E by exact Hc. pose proof (Nat.div_mod c a ltac:(lia)). pose proof (Nat.mod_upper_bound c a ltac:(lia)). nia.
    - intros [L U]. assert (Hc : (c < nchan)%nat) by nia. split; [exact Hc|]. rewrite D1 by exact Hc. symmetry. apply (Nat.div_unique c a p (c - p * a)); nia. }
  rewrite (Permutation_length P). apply seq_length.
Qed.
Lemma freqs_twice nchan a b col f : (0 < a)%nat -> (0 < b)%nat -> Nat.modulo nchan a = 0%nat ->
  let '(m1, k1) := channel_mapper nchan a in let '(m2, k2) := channel_mapper k1 b in let '(m, k) := channel_mapper nchan (a * b) in
  (f < k)%nat -> chan_freq_mean RK k1 k2 m2 (chan_freq_mean RK nchan k1 m1 col) f = chan_freq_mean RK nchan k m col f.
Proof.
  intros Ha Hb Hm. pose proof (bins_twice a b nchan Ha Hb) as B. pose proof (bin_full nchan a) as BF. destruct (channel_mapper nchan a) as [m1 k1]. destruct (channel_mapper k1 b) as [m2 k2].
  destruct (channel_mapper nchan (a * b)) as [m k]. destruct B as [-> B]. intros Hf. cbn [fst snd] in BF. rewrite !freq_mean by assumption.
  pose proof (bin_twice nchan k1 m1 m2 m f B) as P. rewrite (tot_perm _ _ _ P), (Permutation_length P), tot_flat.
  assert (Hin : forall p, In p (bin k1 m2 f) -> (p < k1)%nat) by (intros p Hp; now apply in_bin in Hp).
  rewrite (flat_len _ _ a) by (intros p Hp; apply BF; [exact Ha|exact Hm|now apply Hin]).
  rewrite (tot_ext _ (fun p => / INR a * tot col (bin nchan m1 p))).
  2: { intros p Hp. rewrite freq_mean by now apply Hin. rewrite BF by (try assumption; now apply Hin). unfold Rdiv. match goal with |- ?x = ?y => change (@eq R x y) end. ring. }
  assert (Sc : forall l, tot (fun p => / INR a * tot col (bin nchan m1 p)) l = / INR a * tot (fun p => tot col (bin nchan m1 p)) l).
  { induction l as [|p l IH]; [symmetry; apply Rmult_0_r|]. rewrite !tot_cons, IH. match goal with |- ?x = ?y => change (@eq R x y) end. ring. }
  rewrite Sc, mult_INR. unfold Rdiv. rewrite Rinv_mult. match goal with |- ?x = ?y => change (@eq R x y) end. ring.
Qed.
