(* Averages with rounding. *)
From Coq Require Import Reals Lra Lia Psatz.
From Verif Require Import Prelude PreludeFacts AvgModel AvgModel2 AvgSpec AvgSpec2 AvgProofs AvgProofs2 AvgProofs3 AvgProofs4 AvgProofs5 AvgProofs6 AvgProofs7
  RoundSpec RavgModel RavgSpec.
Open Scope R_scope.

Lemma abs_inv x y : Rabs x <= y -> - y <= x <= y.
Proof. intros H. unfold Rabs in H. destruct (Rcase_abs x); lra. Qed.
Lemma rlt_spec x y : rlt x y = true <-> x < y.
Proof. unfold rlt. destruct (Rlt_dec x y); split; congruence || (intros; lra) || auto. Qed.
Lemma rlt_false x y : rlt x y = false <-> y <= x.
Proof. unfold rlt. destruct (Rlt_dec x y); split; congruence || (intros; lra) || auto. Qed.
Lemma rne_spec x y : rne x y = true <-> x <> y.
Proof. unfold rne. destruct (Req_EM_T x y); split; congruence. Qed.
Lemma rounded_rows_ok fl big : arith_ok (rounded_rows fl big).
Proof.
  constructor; [constructor|]; cbn [ltb neqb num rounded_rows].
  - intros x. apply rlt_false. lra.
  - intros x y z. rewrite !rlt_spec. lra.
  - intros x y. rewrite !rlt_false. lra.
  - intros x y. apply rne_spec.
Qed.

Lemma total_pos {A} (f : A -> R) l : (forall a, In a l -> 0 <= f a) -> 0 <= total f l.
Proof. induction l as [|a l IH]; cbn; intros H; [lra|]. pose proof (H a (or_introl eq_refl)). assert (0 <= total f l) by (apply IH; auto). unfold total in *. lra. Qed.
Lemma total_le {A} (f g : A -> R) l : (forall a, In a l -> f a <= g a) -> total f l <= total g l.
Proof. induction l as [|a l IH]; cbn; intros H; [lra|]. pose proof (H a (or_introl eq_refl)). assert (total f l <= total g l) by (apply IH; auto). unfold total in *. lra. Qed.
Lemma total_abs {A} (f : A -> R) l : Rabs (total f l) <= total (fun a => Rabs (f a)) l.
Proof. induction l as [|a l IH]; cbn; [rewrite Rabs_R0; lra|]. eapply Rle_trans; [apply Rabs_triang|]. unfold total in *. lra. Qed.
Lemma total_const {A} (x : R) (l : list A) : total (fun _ => x) l = INR (length l) * x.
Proof. induction l as [|a l IH]; [cbn; ring|]. change (length (a :: l)) with (S (length l)). rewrite S_INR. cbn [total fold_right]. fold (total (fun _ : A => x) l). rewrite IH. ring. Qed.
Lemma total_ext {A} (f g : A -> R) l : (forall a, In a l -> f a = g a) -> total f l = total g l.
Proof. intros H. apply Rle_antisym; apply total_le; intros a Ha; rewrite (H a Ha); lra. Qed.

Section Near.
  Context (fl : R -> R) (u : R) (Hu : roundoff fl u).
  Lemma gamma_pos k : 0 <= gamma u k.
  Proof. unfold gamma. assert (1 <= (1 + u) ^ k); [|lra]. apply pow_R1_Rle. destruct Hu. lra. Qed.
  Lemma gamma_mono j k : (j <= k)%nat -> gamma u j <= gamma u k.
  Proof. intros H. unfold gamma. assert ((1 + u) ^ j <= (1 + u) ^ k); [|lra]. apply Rle_pow; [destruct Hu; lra|exact H]. Qed.
  Lemma gamma_S k : gamma u (S k) = gamma u k + u * (1 + gamma u k).
  Proof. unfold gamma. cbn [pow]. ring. Qed.

  Definition near (k : nat) (x' x m : R) : Prop := Rabs (x' - x) <= gamma u k * m /\ Rabs x <= m.
  Lemma near_m k x' x m : near k x' x m -> 0 <= m.
  Proof. intros [_ H]. pose proof (Rabs_pos x). lra. Qed.
  Lemma near_mono j k x' x m : (j <= k)%nat -> near j x' x m -> near k x' x m.
  Proof. intros H N. pose proof (near_m _ _ _ _ N). destruct N as [N1 N2]. split; [|exact N2]. pose proof (gamma_mono j k H). nra. Qed.
  Lemma near_self x : near 0 x x (Rabs x).
  Proof. split; [|lra]. rewrite Rminus_diag_eq, Rabs_R0 by reflexivity. unfold gamma. simpl. lra. Qed.
  Lemma near_big k x' x m : near k x' x m -> Rabs x' <= (1 + gamma u k) * m.
  Proof. intros [A B]. replace x' with ((x' - x) + x) by ring. eapply Rle_trans; [apply Rabs_triang|]. lra. Qed.
  Lemma near_fl k x' x m : near k x' x m -> near (S k) (fl x') x m.
  Proof.
    intros N. pose proof (near_big _ _ _ _ N) as B. destruct N as [A C]. split; [|exact C].
    replace (fl x' - x) with ((fl x' - x') + (x' - x)) by ring. eapply Rle_trans; [apply Rabs_triang|].
    destruct Hu as [Hp H]. pose proof (H x') as E. rewrite gamma_S.
    assert (u * Rabs x' <= u * ((1 + gamma u k) * m)) by (apply Rmult_le_compat_l; lra). lra.
  Qed.
  Lemma near_plus k x' x m y' y n : near k x' x m -> near k y' y n -> near k (x' + y') (x + y) (m + n).
  Proof.
    intros [A B] [C D]. split.
    - replace (x' + y' - (x + y)) with ((x' - x) + (y' - y)) by ring. eapply Rle_trans; [apply Rabs_triang|]. lra.
    - eapply Rle_trans; [apply Rabs_triang|]. lra.
  Qed.
  Lemma near_minus k x' x m y' y n : near k x' x m -> near k y' y n -> near k (x' - y') (x - y) (m + n).
  Proof.
    intros [A B] [C D]. split.
    - replace (x' - y' - (x - y)) with ((x' - x) + - (y' - y)) by ring. eapply Rle_trans; [apply Rabs_triang|]. rewrite Rabs_Ropp. lra.
    - unfold Rminus. eapply Rle_trans; [apply Rabs_triang|]. rewrite Rabs_Ropp. lra.
  Qed.
  Lemma near_times k x' x m d : 0 <= d -> near k x' x m -> near k (x' * d) (x * d) (m * d).
  Proof.
    intros Hd [A B]. split.
    - replace (x' * d - x * d) with ((x' - x) * d) by ring. rewrite Rabs_mult, (Rabs_pos_eq d Hd). nra.
    - rewrite Rabs_mult, (Rabs_pos_eq d Hd). nra.
  Qed.

  Lemma fold_near {A} j (f' f m : A -> R) l : (forall a, In a l -> near j (f' a) (f a) (m a)) ->
    forall k s' s t, (j <= k)%nat -> near k s' s t ->
    near (k + length l) (fold_left (fun s a => fl (s + f' a)) l s') (s + total f l) (t + total m l).
  Proof.
    induction l as [|a l IH]; cbn [fold_left length total fold_right]; intros H k s' s t Hk N.
    - rewrite Nat.add_0_r, !Rplus_0_r. exact N.
    - rewrite <- !Rplus_assoc. replace (k + S (length l))%nat with (S k + length l)%nat by lia.
      apply IH; [intros b Hb; apply H; now right|lia|].
      apply near_fl. apply near_plus; [exact N|]. apply (near_mono j k); [exact Hk|]. apply H. now left.
  Qed.
  Lemma lsum_near {A} j (f' f m : A -> R) l : (forall a, In a l -> near j (f' a) (f a) (m a)) ->
    near (j + length l) (lsum (fun x y => fl (x + y)) 0 f' l) (total f l) (total m l).
  Proof.
    intros H. pose proof (fold_near j f' f m l H j 0 0 0 (Nat.le_refl j)) as E. rewrite !Rplus_0_l in E. apply E.
    split; rewrite ?Rminus_0_r, Rabs_R0; lra.
  Qed.
  Lemma sum_near {A} (f : A -> R) l : near (length l) (lsum (fun x y => fl (x + y)) 0 f l) (total f l) (total (fun a => Rabs (f a)) l).
  Proof. apply (lsum_near 0). intros a _. apply near_self. Qed.
  Lemma mean_near {A} (f : A -> R) l : l <> [] ->
    near (S (length l)) (fl (lsum (fun x y => fl (x + y)) 0 f l / INR (length l))) (mean f l) (mean (fun a => Rabs (f a)) l).
  Proof.
    intros H. apply near_fl. apply near_times; [|apply sum_near].
    assert (0 < INR (length l)) by (apply lt_0_INR; destruct l; [congruence|simpl; lia]). left. now apply Rinv_0_lt_compat.
  Qed.
  Lemma mean_bound {A} (f : A -> R) l T : l <> [] -> (forall a, In a l -> f a <= T) -> mean f l <= T.
  Proof.
    intros H B. assert (P : 0 < INR (length l)) by (apply lt_0_INR; destruct l; [congruence|simpl; lia]).
    unfold mean. apply (Rmult_le_reg_r (INR (length l))); [exact P|]. unfold Rdiv. rewrite Rmult_assoc, Rinv_l, Rmult_1_r by lra.
    rewrite (Rmult_comm T), <- total_const. now apply total_le.
  Qed.

  (* ---------- rows ---------- *)
  Notation F := (rounded_rows fl).
  Lemma col_sum_lsum big col l : col_sum (F big) col l = lsum (fun x y => fl (x + y)) 0 col l.
  Proof.
    unfold col_sum, lsum. cbn [zero add rounded_rows]. generalize 0. induction l as [|i l IH]; intros z; [reflexivity|]. cbn [map fold_left]. apply IH.
  Qed.
  Lemma below_sentinel big n time T : (forall i, (i < n)%nat -> Rabs (time i) <= T) -> (1 + u) ^ S n * T < big -> sentinel_above (F big) n time.
  Proof.
    intros HT HB l Hl Nd Hin. cbn [ltb sentinel rounded_rows]. apply rlt_spec. unfold col_mean. rewrite col_sum_lsum. cbn [divn rounded_rows].
    pose proof (near_big _ _ _ _ (mean_near time l Hl)) as H.
    assert (L : (length l <= n)%nat).
    { rewrite <- (seq_length n 0). apply NoDup_incl_length; [exact Nd|]. intros i Hi. apply in_seq. pose proof (Hin i Hi). lia. }
    assert (M : mean (fun a => Rabs (time a)) l <= T) by (apply mean_bound; auto).
    assert (P : 0 <= mean (fun a => Rabs (time a)) l) by exact (near_m _ _ _ _ (mean_near time l Hl)).
    pose proof (gamma_mono (S (length l)) (S n) ltac:(lia)) as G. pose proof (gamma_pos (S (length l))).
    replace (1 + gamma u (S n)) with ((1 + u) ^ S n) in * by (unfold gamma; ring).
    eapply Rle_lt_trans; [apply Rle_abs|]. eapply Rle_lt_trans; [exact H|]. eapply Rle_lt_trans; [|exact HB].
    apply Rmult_le_compat; try lra. unfold gamma in *. lra.
  Qed.

  Theorem row_times big n time interval ant1 ant2 flag_row secs out T :
    int32_col n ant1 -> int32_col n ant2 -> (forall i, (i < n)%nat -> Rabs (time i) <= T) -> (1 + u) ^ S n * T < big ->
    row_mapper (F big) n time interval ant1 ant2 flag_row secs = Ok out ->
    forall k, (k < rm_out_rows _ out)%nat -> exists l, rows_by_time (F big) n time (fun i => rm_map _ out i = k) l /\ l <> [] /\
      Rabs (rm_time _ out k - mean time l) <= gamma u (S (length l)) * mean (fun i => Rabs (time i)) l /\
      Rabs (rm_interval _ out k - total interval l) <= gamma u (length l) * total (fun i => Rabs (interval i)) l.
  Proof.
    intros H1 H2 HT HB E k Hk.
    destruct (rm_mean (F big) (rounded_rows_ok fl big) n time interval ant1 ant2 flag_row secs out H1 H2 (below_sentinel big n time T HT HB) E k Hk) as (l & L & Nl & E1 & E2).
    exists l. split; [exact L|]. split; [exact Nl|]. rewrite E1, E2. unfold col_mean. rewrite !col_sum_lsum. cbn [divn rounded_rows].
    split; [exact (proj1 (mean_near time l Nl))|exact (proj1 (sum_near interval l))].
  Qed.

  Theorem row_width big n time interval ant1 ant2 flag_row secs w out T :
    u < 1 -> 0 <= secs -> 0 <= w ->
    int32_col n ant1 -> int32_col n ant2 -> (forall i, (i < n)%nat -> Rabs (time i) <= T) -> (1 + u) ^ S n * T < big ->
    (forall i, (i < n)%nat -> interval i = w) ->
    row_mapper (F big) n time interval ant1 ant2 flag_row secs = Ok out ->
    forall i j, (i < n)%nat -> (j < n)%nat -> rm_map _ out i = rm_map _ out j -> time i < time j ->
      (time j + w / 2) - (time i - w / 2) <= secs / (1 - u) + gamma u 2 * (2 * T + w).
  Proof.
    intros Hu1 Hs Hw H1 H2 HT HB HI E i j Hi Hj M L.
    pose proof (below_sentinel big n time T HT HB) as S. pose proof (rounded_rows_ok fl big) as OK.
    pose proof (rm_baseline (F big) OK n time interval ant1 ant2 flag_row secs out H1 H2 S E i j Hi Hj M) as SB.
    destruct (first_row_exists (F big) OK n time ant1 ant2 j Hj) as [r0 [R1 [R2 R3]]].
    assert (Hr0 : time r0 <= time i) by (apply rlt_false; apply (R3 i Hi); exact SB).
    assert (Hne : r0 <> j) by (intros ->; lra).
    destruct (rm_open_rule (F big) OK n time interval ant1 ant2 flag_row secs out H1 H2 S E r0 j Hj (conj R1 (conj R2 R3)) Hne) as [O _].
    assert (Ho : ltb (F big) secs (sub (F big) (row_end (F big) time interval j) (row_start (F big) time interval r0)) = false).
    { apply O. exists i. split; [exact Hi|]. split; [exact M|]. apply rlt_spec. exact L. }
    apply rlt_false in Ho. unfold row_end, row_start in Ho. cbn [add sub half rounded_rows num] in Ho. rewrite (HI j Hj), (HI r0 R1) in Ho.
    assert (Nh : near 1 (fl (w * / 2)) (w * / 2) (w * / 2)).
    { apply near_fl. rewrite <- (Rabs_pos_eq (w * / 2)) at 3 by lra. apply near_self. }
    assert (Ne : near 2 (fl (time j + fl (w * / 2))) (time j + w * / 2) (Rabs (time j) + w * / 2)).
    { apply near_fl. apply near_plus; [|exact Nh]. apply (near_mono 0 1); [lia|apply near_self]. }
    assert (Ns : near 2 (fl (time r0 - fl (w * / 2))) (time r0 - w * / 2) (Rabs (time r0) + w * / 2)).
    { apply near_fl. apply near_minus; [|exact Nh]. apply (near_mono 0 1); [lia|apply near_self]. }
    set (e := fl (time j + fl (w * / 2))) in *. set (b := fl (time r0 - fl (w * / 2))) in *.
    destruct (near_minus 2 _ _ _ _ _ _ Ne Ns) as [A _].
    assert (B : e - b <= secs / (1 - u)).
    { destruct Hu as [Hp H]. pose proof (H (e - b)) as D. apply abs_inv in D. apply (Rmult_le_reg_r (1 - u)); [lra|].
      replace (secs / (1 - u) * (1 - u)) with secs by (field; lra).
      destruct (Rle_dec 0 (e - b)) as [Q|Q]; [rewrite (Rabs_pos_eq _ Q) in D; lra|]. assert ((e - b) * (1 - u) <= 0) by nra. lra. }
    apply abs_inv in A. pose proof (HT j Hj). pose proof (HT r0 R1). pose proof (gamma_pos 2).
    assert (gamma u 2 * (Rabs (time j) + w * / 2 + (Rabs (time r0) + w * / 2)) <= gamma u 2 * (2 * T + w)) by (apply Rmult_le_compat_l; lra).
    lra.
  Qed.

  (* ---------- cells ---------- *)
  Notation K := (rounded_cols fl).
  (* a quotient of two sums *)
  Lemma quotient n N' N M D' D : gamma u n < 1 -> 0 < D -> near (S n) N' N M -> near n D' D D ->
    0 < D' /\ Rabs (fl (N' / D') - N / D) <= (gamma u (S (S n)) + gamma u n) / (1 - gamma u n) * (M / D).
  Proof.
    intros G HD NN ND. pose proof (near_m _ _ _ _ NN) as HM. pose proof (near_big _ _ _ _ NN) as B. destruct NN as [N1 N2], ND as [D1 _].
    pose proof (gamma_pos n) as g0. pose proof (gamma_pos (S n)) as g1. rewrite (gamma_S (S n)).
    assert (L : (1 - gamma u n) * D <= D') by (apply abs_inv in D1; lra).
    assert (P : 0 < D') by (apply Rlt_le_trans with ((1 - gamma u n) * D); [apply Rmult_lt_0_compat; lra|exact L]).
    split; [exact P|]. set (g := gamma u n) in *. set (g' := gamma u (S n)) in *.
    assert (I : / D' <= / ((1 - g) * D)) by (apply Rinv_le_contravar; [apply Rmult_lt_0_compat; lra|exact L]).
    assert (J : 0 < / D') by now apply Rinv_0_lt_compat.
    assert (X : Rabs (N' / D' - N / D) <= (g' + g) * M * / D').
    { replace (N' / D' - N / D) with ((N' - N) * / D' + N * (D - D') * (/ D * / D')) by (field; lra).
      eapply Rle_trans; [apply Rabs_triang|]. rewrite !Rabs_mult, (Rabs_pos_eq (/ D')) by lra.
      assert (0 < / D) by now apply Rinv_0_lt_compat. rewrite (Rabs_pos_eq (/ D)) by lra. rewrite (Rabs_minus_sym D D').
      assert (Y : Rabs N * Rabs (D' - D) <= M * (g * D)) by (apply Rmult_le_compat; try apply Rabs_pos; assumption).
      assert (Z : Rabs N * Rabs (D' - D) * (/ D * / D') <= M * (g * D) * (/ D * / D')) by (apply Rmult_le_compat_r; [|exact Y]; apply Rmult_le_pos; lra).
      replace (M * (g * D) * (/ D * / D')) with (g * M * / D') in Z by (field; lra).
      assert (Rabs (N' - N) * / D' <= g' * M * / D') by (apply Rmult_le_compat_r; lra). lra. }
    destruct Hu as [Hp H]. pose proof (H (N' / D')) as E.
    replace (fl (N' / D') - N / D) with ((fl (N' / D') - N' / D') + (N' / D' - N / D)) by ring.
    eapply Rle_trans; [apply Rabs_triang|].
    assert (Y : Rabs (N' / D') <= (1 + g') * M * / D') by (unfold Rdiv; rewrite Rabs_mult, (Rabs_pos_eq (/ D')) by lra; apply Rmult_le_compat_r; lra).
    assert (Z : u * Rabs (N' / D') <= u * ((1 + g') * M * / D')) by (apply Rmult_le_compat_l; lra).
    apply Rle_trans with ((g' + u * (1 + g') + g) * M * / D').
    - replace ((g' + u * (1 + g') + g) * M * / D') with (u * ((1 + g') * M * / D') + (g' + g) * M * / D') by ring. lra.
    - replace ((g' + u * (1 + g') + g) / (1 - g) * (M / D)) with ((g' + u * (1 + g') + g) * M * / ((1 - g) * D)) by (field; lra).
      apply Rmult_le_compat_l; [|exact I]. apply Rmult_le_pos; [|exact HM].
      assert (0 <= u * (1 + g')) by (apply Rmult_le_pos; lra). lra.
  Qed.

  Lemma fst_lsum {A} (f : A -> R * R) l : fst (lsum (cadd K) (c0 K) f l) = lsum (fun x y => fl (x + y)) 0 (fun a => fst (f a)) l.
  Proof. unfold lsum. change 0 with (fst (c0 K)). generalize (c0 K). induction l as [|a l IH]; intros z; [reflexivity|]. cbn [fold_left]. rewrite IH. reflexivity. Qed.
  Lemma snd_lsum {A} (f : A -> R * R) l : snd (lsum (cadd K) (c0 K) f l) = lsum (fun x y => fl (x + y)) 0 (fun a => snd (f a)) l.
  Proof. unfold lsum. change 0 with (snd (c0 K)). generalize (c0 K). induction l as [|a l IH]; intros z; [reflexivity|]. cbn [fold_left]. rewrite IH. reflexivity. Qed.
  Lemma near_weighted (part : R * R -> R) v w : (part = fst \/ part = snd) -> (forall y, w = Some y -> 0 <= y) ->
    near 1 (part (weighted K v w)) (weight_or_1 K w * part v) (weight_or_1 K w * Rabs (part v)).
  Proof.
    intros Hp Hw. destruct w as [w|]; cbn [weighted weight_or_1 f1 rounded_cols cscale].
    - pose proof (Hw w eq_refl) as W. replace (part (fl (fst v * w), fl (snd v * w))) with (fl (part v * w)) by (destruct Hp; subst; reflexivity).
      rewrite !(Rmult_comm w). apply near_fl. apply near_times; [exact W|apply near_self].
    - apply (near_mono 0 1); [lia|]. rewrite !Rmult_1_l. apply near_self.
  Qed.

  Theorem cell_average n nchan ncorr orows ochans rmap cmap flag_row oflag x out :
    row_chan_average K n nchan ncorr orows ochans rmap cmap flag_row oflag x = Ok out ->
    forall r f c, (r < orows)%nat -> (f < ochans)%nat -> (c < ncorr)%nat ->
    exists l, averaged n nchan rmap cmap flag_row oflag x r f c l /\
      let k := length l in
      let w p := weight_or_1 K (sample_weight K x (fst p) (snd p) c) in
      (forall v part, in_vis K x = Some v -> part = fst \/ part = snd ->
         (forall p, In p l -> 0 <= w p) -> 0 < total w l -> gamma u k < 1 ->
         let val p := part (v (fst p) (snd p) c) in
         Rabs (part (oc_vis K (out r f c)) - total (fun p => w p * val p) l / total w l) <=
         (gamma u (k + 2) + gamma u k) / (1 - gamma u k) * (total (fun p => w p * Rabs (val p)) l / total w l)) /\
      (forall ws, in_wspec K x = Some ws ->
         Rabs (oc_wspec K (out r f c) - total (fun p => ws (fst p) (snd p) c) l) <= gamma u k * total (fun p => Rabs (ws (fst p) (snd p) c)) l).
  Proof.
    intros E r f c Hr Hf Hc.
    destruct (row_chan_average_spec K n nchan ncorr orows ochans rmap cmap flag_row oflag x out E r f c Hr Hf Hc) as (lu & lf & l & Au & Af & Nl & Ch & Hv & Hw & _).
    exists l. split.
    - split; [exact Nl|].
      assert (X : forall P Q l', (forall i ch, P i ch <-> Q i ch) -> ascending2 n nchan P l' -> ascending2 n nchan Q l').
      { intros P Q l' H [S1 S2]. split; [exact S1|]. intros i ch. rewrite S2, H. reflexivity. }
      destruct Ch as [(_ & -> & _)|(-> & -> & _)]; [left|right; split].
      + revert Au. apply X. intros. tauto.
      + revert Au. apply X. intros. tauto.
      + revert Af. apply X. intros. tauto.
    - intros k w. split.
      + intros v part Ev Hp Wp Wt G val.
        set (wo := fun p : nat * nat => sample_weight K x (fst p) (snd p) c) in *.
        assert (ND : near k (lsum (fadd K) (f0 K) (fun p => weight_or_1 K (wo p)) l) (total w l) (total w l)).
        { replace (total w l) with (total (fun p => Rabs (w p)) l) at 2 by (apply total_ext; intros a Ha; apply Rabs_pos_eq; auto). exact (sum_near w l). }
        assert (NN : near (S k) (part (lsum (cadd K) (c0 K) (fun p => weighted K (v (fst p) (snd p) c) (wo p)) l)) (total (fun p => w p * val p) l) (total (fun p => w p * Rabs (val p)) l)).
        { assert (Y : part (lsum (cadd K) (c0 K) (fun p => weighted K (v (fst p) (snd p) c) (wo p)) l) = lsum (fun x y => fl (x + y)) 0 (fun p => part (weighted K (v (fst p) (snd p) c) (wo p))) l)
            by (destruct Hp; subst; [apply fst_lsum|apply snd_lsum]).
          rewrite Y. apply (lsum_near 1). intros p Hp'. apply near_weighted; [exact Hp|]. intros y Ey. pose proof (Wp p Hp') as Z. unfold w in Z. fold (wo p) in Z. rewrite Ey in Z. exact Z. }
        destruct (quotient k _ _ _ _ _ G Wt NN ND) as [P Q]. specialize (Hv v Ev). cbv zeta in Hv.
        assert (Z : fnonzero K (lsum (fadd K) (f0 K) (fun p => weight_or_1 K (wo p)) l) = true) by (apply rne_spec; lra).
        unfold wo in *. rewrite Z in Hv. rewrite Hv. replace (k + 2)%nat with (S (S k)) by lia.
        replace (part (cdiv K (lsum (cadd K) (c0 K) (fun p => weighted K (v (fst p) (snd p) c) (sample_weight K x (fst p) (snd p) c)) l)
                   (lsum (fadd K) (f0 K) (fun p => weight_or_1 K (sample_weight K x (fst p) (snd p) c)) l)))
          with (fl (part (lsum (cadd K) (c0 K) (fun p => weighted K (v (fst p) (snd p) c) (sample_weight K x (fst p) (snd p) c)) l) /
                   lsum (fadd K) (f0 K) (fun p => weight_or_1 K (sample_weight K x (fst p) (snd p) c)) l)) by (destruct Hp; subst; reflexivity).
        exact Q.
      + intros ws Ew. rewrite (Hw ws Ew). exact (proj1 (sum_near (fun p => ws (fst p) (snd p) c) l)).
  Qed.

  Theorem frequencies nchan ochans cmap freq b : (b < ochans)%nat -> exists l, ascending nchan (fun ch => cmap ch = b) l /\
    forall o, l <> [] -> ca_freq K (chan_average K nchan ochans cmap (Some freq) None None None) = Some o ->
      Rabs (o b - mean freq l) <= gamma u (S (length l)) * mean (fun ch => Rabs (freq ch)) l.
  Proof.
    intros Hb. destruct (chan_average_spec K nchan ochans cmap (Some freq) None None None) as [H _].
    destruct (H b Hb) as (l & A & F1 & _). exists l. split; [exact A|]. intros o Nl Eo. destruct (F1 freq eq_refl) as (o' & E & V).
    rewrite Eo in E. injection E as <-. rewrite V. exact (proj1 (mean_near freq l Nl)).
  Qed.

  Theorem row_columns n out_rows rmap oflag ant1 ant2 flag_row x ant_init :
    (forall i j, (i < n)%nat -> (j < n)%nat -> rmap i = rmap j -> same_baseline ant1 ant2 i j) ->
    let out := row_average K n out_rows rmap oflag ant1 ant2 flag_row x ant_init in
    forall k, (k < out_rows)%nat -> exists l, ascending n (fun i => rmap i = k /\ contributes flag_row oflag i k) l /\
      (l <> [] ->
       (forall uvw c, in_uvw K x = Some uvw -> (c < 3)%nat ->
          Rabs (rc_uvw K (ra_cells K out k) c - mean (fun i => uvw i c) l) <= gamma u (S (length l)) * mean (fun i => Rabs (uvw i c)) l) /\
       (forall t, in_tc K x = Some t -> Rabs (rc_tc K (ra_cells K out k) - mean t l) <= gamma u (S (length l)) * mean (fun i => Rabs (t i)) l)) /\
      (forall e, in_exp K x = Some e -> Rabs (rc_exp K (ra_cells K out k) - total e l) <= gamma u (length l) * total (fun i => Rabs (e i)) l).
  Proof.
    intros HB out k Hk. destruct (row_average_spec K n out_rows rmap oflag ant1 ant2 flag_row x ant_init HB) as [_ H].
    destruct (H k Hk) as (l & A & M & X & _). exists l. split; [exact A|]. split.
    - intros Nl. destruct (M Nl) as (U & T & _). split.
      + intros uvw c Eu Hc. unfold out. rewrite (U uvw c Eu Hc). exact (proj1 (mean_near (fun i => uvw i c) l Nl)).
      + intros t Et. unfold out. rewrite (T t Et). exact (proj1 (mean_near t l Nl)).
    - intros e Ee. unfold out. rewrite (X e Ee). exact (proj1 (sum_near e l)).
  Qed.
End Near.
