From Coq Require Import Reals Lra.
From Coq Require Import String Ascii.
From Verif Require Import Prelude CRing CplxR DaskPredictModel ApplyGainsModel ApplyGainsProofs SpiModel SpiSpec SpiProofs SpiProps FftFacts RestoreModel RestoreSpec RestoreProofs FitterModel FitterSpec.
Open Scope list_scope.
Open Scope R_scope.

(* ---- mask ---- *)
Lemma band_min_above nb x t : (0 < nb)%nat -> t < band_min nb x <-> forall b, (b < nb)%nat -> t < x b.
Proof.
  intros N. unfold band_min. destruct nb as [|n]; [lia|]. replace (S n - 1)%nat with n by lia. clear N.
  induction n as [|n IH]; cbn [for_].
  - split; [intros H b B; now replace b with O by lia|intros H; apply H; lia].
  - split.
    + intros H b B. assert (A : t < for_ n (fun b m => Rmin m (x (S b))) (x O) /\ t < x (S n)).
      { split; eapply Rlt_le_trans; [exact H|apply Rmin_l|exact H|apply Rmin_r]. }
      destruct (Nat.eq_dec b (S n)) as [->|NE]; [tauto|]. apply IH; [tauto|lia].
    + intros H. apply Rmin_glb_lt; [apply IH; intros b B; apply H; lia|apply H; lia].
Qed.
Lemma mask_in nb c t i j : (0 < nb)%nat -> In (i, j) (mask nb c t) <-> bright nb c t i j.
Proof.
  intros N. unfold mask, bright. rewrite in_flat_map. split.
  - intros [i' [I H]]. apply in_map_iff in H. destruct H as [j' [E H]]. injection E as -> ->. apply filter_In in H. destruct H as [J H].
    apply in_seq in I. apply in_seq in J. destruct (Rlt_dec _ _) as [L|L]; [|discriminate]. split; [lia|split; [lia|]]. exact (proj1 (band_min_above nb _ t N) L).
  - intros (I & J & H). exists i. split; [apply in_seq; lia|]. apply in_map_iff. exists j. split; [reflexivity|]. apply filter_In. split; [apply in_seq; lia|].
    destruct (Rlt_dec _ _) as [L|L]; [reflexivity|]. exfalso. apply L. apply band_min_above; [exact N|exact H].
Qed.
Lemma nodup_app {A} (l m : list A) : NoDup l -> NoDup m -> (forall x, In x l -> In x m -> False) -> NoDup (l ++ m).
Proof.
  induction l as [|a l IH]; intros L M D; [exact M|]. inversion L; subst. cbn. constructor; [|apply IH; auto; intros x I J; apply (D x); [now right|exact J]].
  rewrite in_app_iff. intros [I|I]; [contradiction|]. apply (D a); [now left|exact I].
Qed.
Lemma mask_nodup nb c t : NoDup (mask nb c t).
Proof.
  unfold mask. assert (G : forall l, NoDup l -> NoDup (flat_map (fun i => map (pair i) (filter (fun j => if Rlt_dec t (band_min nb (fun b => cu_at c b i j)) then true else false) (seq 0 (cu_2 c)))) l)).
  { induction l as [|i l IH]; intros L; [constructor|]. inversion L; subst. cbn. apply nodup_app; [|now apply IH|].
    - assert (K : forall m, NoDup m -> NoDup (map (pair i) (m : list nat))).
      { induction m as [|a m IHm]; intros M; [constructor|]. inversion M; subst. cbn. constructor; [|now apply IHm]. rewrite in_map_iff. intros [y [E I]]. injection E as ->. contradiction. }
      apply K, NoDup_filter, seq_NoDup.
    - intros [a b] P Q. apply in_map_iff in P. destruct P as [j [E _]]. injection E as <- <-. apply in_flat_map in Q. destruct Q as [i' [I' Q]]. apply in_map_iff in Q. destruct Q as [j' [E _]]. injection E as <- <-. contradiction. }
  apply G, seq_NoDup.
Qed.
(* ---- scatter ---- *)
Lemma fold_out (l : list (nat * nat)) vals m i j : ~ In (i, j) l ->
  fold_left (fun m pv => upd2 m (fst (fst pv)) (snd (fst pv)) (snd pv)) (combine l vals) m i j = (m i j : R).
Proof.
  revert vals m. induction l as [|[a b] l IH]; intros vals m N; [reflexivity|]. destruct vals as [|v vals]; [reflexivity|]. cbn [combine fold_left fst snd].
  rewrite IH by (intros I; apply N; now right). unfold upd2. destruct (Nat.eqb_spec i a), (Nat.eqb_spec j b); cbn; try reflexivity. subst. exfalso. apply N. now left.
Qed.
Lemma fold_in (l : list (nat * nat)) vals m c : NoDup l -> (c < List.length l)%nat -> (c < List.length vals)%nat ->
  fold_left (fun m pv => upd2 m (fst (fst pv)) (snd (fst pv)) (snd pv)) (combine l vals) m (fst (nth c l (0, 0)%nat)) (snd (nth c l (0, 0)%nat)) = nth c vals 0.
Proof.
  revert vals m c. induction l as [|[a b] l IH]; intros vals m c ND L V; [cbn in L; lia|]. destruct vals as [|v vals]; [cbn in V; lia|]. inversion ND; subst. cbn [combine fold_left fst snd].
  destruct c as [|c]; cbn [nth fst snd].
  - rewrite fold_out by assumption. unfold upd2. now rewrite !Nat.eqb_refl.
  - apply IH; [assumption|cbn in L; lia|cbn in V; lia].
Qed.
Lemma scatter_ok d1 d2 l vals m : NoDup l -> List.length vals = List.length l -> scatter d1 d2 l vals = Ok m ->
  (forall i j, In (i, j) l -> (i < d1)%nat /\ (j < d2)%nat) /\
  (forall c, (c < List.length l)%nat -> m (fst (nth c l (0, 0)%nat)) (snd (nth c l (0, 0)%nat)) = nth c vals 0) /\
  (forall i j, ~ In (i, j) l -> m i j = 0).
Proof.
  intros ND L H. unfold scatter in H. destruct (forallb _ l) eqn:F; [|discriminate]. injection H as <-. split; [|split].
  - intros i j I. apply (proj1 (forallb_forall _ l) F) in I. apply andb_prop in I. destruct I as [A B]. cbn in A, B. apply Nat.ltb_lt in A. apply Nat.ltb_lt in B. lia.
  - intros c C. apply fold_in; [assumption|assumption|lia].
  - intros i j N. now rewrite fold_out.
Qed.
Lemma scatter_total d1 d2 l vals : (forall i j, In (i, j) l -> (i < d1)%nat /\ (j < d2)%nat) -> exists m, scatter d1 d2 l vals = Ok m.
Proof.
  intros H. unfold scatter. rewrite (proj2 (forallb_forall _ l)); [eexists; reflexivity|]. intros [i j] I. destruct (H i j I). cbn. apply andb_true_intro. split; now apply Nat.ltb_lt.
Qed.
Lemma scatter_refuses d1 d2 l vals i j : In (i, j) l -> (d1 <= i)%nat \/ (d2 <= j)%nat -> scatter d1 d2 l vals = Raise IndexError.
Proof.
  intros I H. unfold scatter. destruct (forallb _ l) eqn:F; [|reflexivity]. apply (proj1 (forallb_forall _ l) F) in I. apply andb_prop in I. destruct I as [A B]. cbn in A, B. apply Nat.ltb_lt in A. apply Nat.ltb_lt in B. lia.
Qed.
(* ---- the fit ---- *)
Lemma sizes_sum n k : (0 < k)%nat -> list_sum (chunk_sizes n k) = n.
Proof.
  intros K. pose proof (sizes_off n k (List.length (chunk_sizes n k)) K) as O.
  assert (A : (n <= List.length (chunk_sizes n k) * k)%nat). { destruct (le_lt_dec n (List.length (chunk_sizes n k) * k)) as [L|L]; [exact L|]. apply (sizes_length n k (List.length (chunk_sizes n k)) K) in L. lia. }
  rewrite Nat.min_r in O by exact A. unfold CalModel.off in O. now rewrite firstn_all in O.
Qed.
Lemma mapM_all {A B} (f : A -> res B) g l : (forall x, In x l -> f x = Ok (g x)) -> mapM f l = Ok (map g l).
Proof.
  induction l as [|a l IH]; intros H; [reflexivity|]. cbn [mapM map]. rewrite (H a) by now left. cbn [bind]. rewrite IH by (intros x I; apply H; now right). reflexivity.
Qed.
Lemma mapM_raise {A B} (f : A -> res B) a l e : f a = Raise e -> mapM f (a :: l) = Raise e.
Proof. intros H. cbn [mapM]. now rewrite H. Qed.
Lemma vals_all n size nb d wt freqs f0 : (0 < size)%nat -> nb <> 2%nat ->
  exists out, fit_spi_components n nb Float64 d wt freqs f0 None None None (1 / 10 ^ 5) 100 = Ok out /\
  mapM (fun c => do! a <- dask_fit (chunk_sizes n size) [nb] Float64 d wt freqs f0 None None None (1 / 10 ^ 5) 100 0 c;
                 do! i <- dask_fit (chunk_sizes n size) [nb] Float64 d wt freqs f0 None None None (1 / 10 ^ 5) 100 2 c; Ok (a, i)) (seq 0 n)
  = Ok (map (fun c => (out 0%nat c, out 2%nat c)) (seq 0 n)).
Proof.
  intros S0 N. pose proof (sizes_sum n size S0) as T.
  assert (TOL : 1 / 10 ^ 5 < 1) by (cbn; lra).
  destruct n as [|n]; [exists (fun p c => match p with O => - (7 / 10) | 2%nat => d c (ref_freq_idx nb freqs f0) / 1 | _ => 0 end); split; [reflexivity|reflexivity]|].
  destruct (C56_chunks (chunk_sizes (S n) size) nb Float64 d wt freqs f0 None None None (1 / 10 ^ 5) 100 0 0 ltac:(discriminate) TOL ltac:(lia) N ltac:(rewrite T; lia) ltac:(lia)) as [out [E _]].
  rewrite T in E. exists out. split; [exact E|]. apply mapM_all. intros c C. apply in_seq in C.
  assert (D : forall p, (p < 4)%nat -> dask_fit (chunk_sizes (S n) size) [nb] Float64 d wt freqs f0 None None None (1 / 10 ^ 5) 100 p c = Ok (out p c)).
  { intros p P. destruct (C56_chunks (chunk_sizes (S n) size) nb Float64 d wt freqs f0 None None None (1 / 10 ^ 5) 100 p c ltac:(discriminate) TOL ltac:(lia) N ltac:(rewrite T; lia) P) as [out' [E' D]].
    rewrite T, E in E'. injection E' as <-. exact D. }
  rewrite !D by lia. reflexivity.
Qed.
Lemma fit_is n nb d wt freqs f0 out c : (0 < nb)%nat -> nb <> 2%nat -> (c < n)%nat ->
  fit_spi_components n nb Float64 d wt freqs f0 None None None (1 / 10 ^ 5) 100 = Ok out ->
  fit_of nb (d c) wt freqs f0 (out 0%nat c) (out 2%nat c).
Proof.
  intros P N C E. assert (TOL : 1 / 10 ^ 5 < 1) by (cbn; lra).
  destruct (C56_iterations n nb Float64 d wt freqs f0 None None None (1 / 10 ^ 5) 100 c ltac:(discriminate) TOL ltac:(lia) P N C) as (out' & k & p & E' & K & S0 & St & Ch & En & A & I & _).
  rewrite E in E'. injection E' as <-. exists k, p. split; [exact K|]. destruct S0 as [S1 (near & NE & S2)]. cbn [beam_or_1] in S2. replace (d c near / 1) with (d c near) in S2 by field.
  split; [exact S1|]. split; [exists near; tauto|]. split; [exact St|]. split; [exact Ch|]. split; [exact En|]. tauto.
Qed.
(* ---- header, weights, rms ---- *)
Lemma axis_bands h ax nb r d v : freq_axis h = Ok (ax, nb, r, d, v) <-> describes_bands h ax nb r d v.
Proof.
  unfold freq_axis, describes_bands. destruct (String.eqb_spec (ctype4 h) "FREQ") as [E4|E4]; cbn [bind].
  - destruct (Nat.ltb_spec 1 (naxis3 h)); split.
    + discriminate.
    + intros [H'|H']; [lia|tauto].
    + intros Q. injection Q as <- <- <- <- <-. left. repeat split; auto; lia.
    + intros [(_ & -> & -> & -> & -> & -> & _)|H']; [reflexivity|tauto].
  - destruct (String.eqb_spec (ctype3 h) "FREQ") as [E3|E3]; cbn [bind].
    + destruct (Nat.ltb_spec 1 (naxis4 h)); split.
      * discriminate.
      * intros [H'|H']; [tauto|lia].
      * intros Q. injection Q as <- <- <- <- <-. right. repeat split; auto; lia.
      * intros [H'|(_ & _ & -> & -> & -> & -> & -> & _)]; [tauto|reflexivity].
    + split; [discriminate|tauto].
Qed.
Lemma axis_value_error h e : freq_axis h = Raise e -> e = ValueError.
Proof.
  unfold freq_axis. destruct (String.eqb (ctype4 h) "FREQ"); cbn [bind]; [destruct (Nat.ltb _ _); congruence|].
  destruct (String.eqb (ctype3 h) "FREQ"); cbn [bind]; [destruct (Nat.ltb _ _); congruence|congruence].
Qed.
Lemma is_degrees_spec u : is_degrees u = true <-> degrees u.
Proof. unfold is_degrees, degrees. now rewrite orb_true_iff, !String.eqb_eq. Qed.
Lemma std_rms lo nb n1 n2 x : cube_std lo nb n1 n2 x = rms lo nb n1 n2 x.
Proof. unfold cube_std, rms, cube_mean, average. now rewrite !mult_INR. Qed.
Lemma max_spec n (f : arr R) : let m := for_ n (fun b m => Rmax m (f (S b))) (f O) in (forall b, (b < S n)%nat -> f b <= m) /\ exists b, (b < S n)%nat /\ f b = m.
Proof.
  cbv zeta. induction n as [|n [A [b [B E]]]]; cbn [for_].
  - split; [intros b B; replace b with O by lia; lra|exists O; split; [lia|reflexivity]].
  - split.
    + intros c C. destruct (Nat.eq_dec c (S n)) as [->|N]; [apply Rmax_r|]. eapply Rle_trans; [apply A; lia|apply Rmax_l].
    + unfold Rmax. destruct (Rle_dec _ _); [exists (S n); split; [lia|reflexivity]|exists b; split; [lia|exact E]].
Qed.
Lemma weights_spec nb rms : (0 < nb)%nat -> (exists b, (b < nb)%nat /\ 0 < rms b) -> inverse_variance nb rms (band_weights nb rms).
Proof.
  intros N [b0 [B0 P0]]. unfold band_weights. destruct nb as [|n]; [lia|]. replace (S n - 1)%nat with n by lia.
  destruct (max_spec n (raw_weight rms)) as [A [bm [BM E]]]. set (mx := for_ n _ _) in *.
  assert (P : 0 < mx). { eapply Rlt_le_trans; [|apply (A b0 B0)]. unfold raw_weight. destruct (Rlt_dec 0 (rms b0)); [|contradiction]. unfold Rdiv. rewrite Rmult_1_l. apply Rinv_0_lt_compat. nra. }
  exists (/ mx). split; [now apply Rinv_0_lt_compat|]. split; [|split; [|split]].
  - intros b B R0. unfold raw_weight. destruct (Rlt_dec 0 (rms b)); [|contradiction]. unfold Rsqr. field. lra.
  - intros b B R0. unfold raw_weight. destruct (Rlt_dec 0 (rms b)); [lra|]. unfold Rdiv. ring.
  - intros b B. apply (Rmult_le_reg_r mx); [exact P|]. unfold Rdiv. rewrite Rmult_assoc, Rinv_l by lra. specialize (A b B). lra.
  - exists bm. split; [exact BM|]. rewrite E. field. lra.
Qed.
