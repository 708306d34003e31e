From Coq Require Import Reals Lra Lia Permutation Sorting.Sorted.
From Verif Require Import Prelude PreludeFacts AvgModel AvgModel2 AvgSpec AvgSpec2 AvgProofs3 AvgProofs4 AvgProofs5 AvgProofs6 AvgProofs7 RavgModel StepsSpec.
Open Scope R_scope.

(* ---------- sums over lists ---------- *)
Definition tot {A} (f : A -> R) (l : list A) : R := fold_right (fun a s => f a + s) 0 l.
Lemma lsum_tot {A} (f : A -> R) l s : fold_left (fun s a => s + f a) l s = s + tot f l.
Proof. revert s. induction l as [|a l IH]; intros s; cbn [fold_left tot fold_right]; [ring|]. rewrite IH. fold (tot f l). ring. Qed.
Lemma lsum_R {A} (f : A -> R) l : lsum (fadd RK) (f0 RK) f l = tot f l.
Proof. unfold lsum. cbn. rewrite lsum_tot. ring. Qed.
Lemma lsum_C {A} (f : A -> R * R) l : lsum (cadd RK) (c0 RK) f l = (tot (fun a => fst (f a)) l, tot (fun a => snd (f a)) l).
Proof.
  unfold lsum. cbn. assert (H : forall s, fold_left (fun s a => (fst s + fst (f a), snd s + snd (f a))) l s = (fst s + tot (fun a => fst (f a)) l, snd s + tot (fun a => snd (f a)) l)).
  { induction l as [|a l IH]; intros s; cbn [fold_left tot fold_right]; [destruct s; cbn; f_equal; ring|]. rewrite IH. cbn [fst snd]. fold (tot (fun a => fst (f a)) l). fold (tot (fun a => snd (f a)) l). f_equal; ring. }
  rewrite H. cbn. f_equal; ring.
Qed.
Lemma tot_cons {A} f (a : A) l : tot f (a :: l) = f a + tot f l. Proof. reflexivity. Qed.
Lemma tot_app {A} (f : A -> R) l l' : tot f (l ++ l') = tot f l + tot f l'.
Proof. induction l as [|a l IH]; [symmetry; apply Rplus_0_l|]. cbn [app]. rewrite !tot_cons, IH. ring. Qed.
Lemma tot_perm {A} (f : A -> R) l l' : Permutation l l' -> tot f l = tot f l'.
Proof. induction 1; [reflexivity| | |congruence]; rewrite ?tot_cons; [rewrite IHPermutation; reflexivity|ring]. Qed.
Lemma tot_flat {A B} (f : B -> R) (g : A -> list B) l : tot f (flat_map g l) = tot (fun a => tot f (g a)) l.
Proof. induction l as [|a l IH]; [reflexivity|]. cbn [flat_map]. rewrite tot_app, tot_cons, IH. reflexivity. Qed.
Lemma tot_ext {A} (f g : A -> R) l : (forall a, In a l -> f a = g a) -> tot f l = tot g l.
Proof. intros H. induction l as [|a l IH]; [reflexivity|]. rewrite !tot_cons, IH, (H a (or_introl eq_refl)); [reflexivity|]. intros b Hb. apply H. now right. Qed.
Lemma tot_nonneg {A} (f : A -> R) l : (forall a, In a l -> 0 <= f a) -> 0 <= tot f l.
Proof. intros H. induction l as [|a l IH]; [apply Rle_refl|]. rewrite tot_cons. apply Rplus_le_le_0_compat; [apply H; now left|apply IH; intros; apply H; now right]. Qed.
Lemma tot_zero {A} (f : A -> R) l : (forall a, In a l -> 0 <= f a) -> tot f l = 0 -> forall a, In a l -> f a = 0.
Proof.
  intros H E a Ha. induction l as [|b l IH]; [destruct Ha|]. rewrite tot_cons in E. pose proof (H b (or_introl eq_refl)).
  assert (0 <= tot f l) by (apply tot_nonneg; intros; apply H; now right). destruct Ha as [->|Ha]; [lra|]. apply IH; [intros; apply H; now right|lra|exact Ha].
Qed.
Lemma tot_0 {A} (f : A -> R) l : (forall a, In a l -> f a = 0) -> tot f l = 0.
Proof. intros H. induction l as [|b l IH]; [reflexivity|]. rewrite tot_cons, IH, (H b (or_introl eq_refl)) by (intros; apply H; now right). ring. Qed.

(* ---------- lists in order ---------- *)
Lemma pair_lt_irr p : ~ pair_lt p p. Proof. destruct p. unfold pair_lt. cbn. lia. Qed.
Lemma sorted_nodup l : StronglySorted pair_lt l -> NoDup l.
Proof.
  induction 1 as [|a l _ IH F]; constructor; [|exact IH]. intros Hin. rewrite Forall_forall in F. exact (pair_lt_irr a (F a Hin)).
Qed.
Lemma pair_dec (p q : nat * nat) : {p = q} + {p <> q}. Proof. decide equality; apply Nat.eq_dec. Qed.
Lemma list_choice {B} (Q : nat * nat -> B -> Prop) (d : B) l : (forall p, In p l -> exists y, Q p y) -> exists g, forall p, In p l -> Q p (g p).
Proof.
  induction l as [|a l IH]; intros H; [exists (fun _ => d); intros p []|]. destruct IH as [g G]; [intros; apply H; now right|].
  destruct (H a (or_introl eq_refl)) as [y Y]. exists (fun p => if pair_dec p a then y else g p). intros p [<-|Hp].
  - destruct (pair_dec a a) as [_|N]; [exact Y|destruct (N eq_refl)].
  - destruct (pair_dec p a) as [->|_]; [exact Y|apply G; exact Hp].
Qed.
Lemma flat_nodup {A B} (g : A -> list B) (key : B -> A) l : NoDup l -> (forall p, In p l -> NoDup (g p)) -> (forall p b, In p l -> In b (g p) -> key b = p) -> NoDup (flat_map g l).
Proof.
  induction 1 as [|a l Ha N IH]; intros G K; [constructor|]. cbn [flat_map].
  assert (D : forall b, In b (g a) -> ~ In b (flat_map g l)).
  { intros b Hb Hin. apply in_flat_map in Hin. destruct Hin as (p & Hp & Hb'). apply Ha. rewrite <- (K a b (or_introl eq_refl) Hb), (K p b (or_intror Hp) Hb'). exact Hp. }
  assert (Na : NoDup (g a)) by (apply G; now left). assert (Nl : NoDup (flat_map g l)) by (apply IH; [intros; apply G; now right|intros; apply K; [now right|assumption]]).
  clear - D Na Nl. induction Na as [|b m Hb _ IH]; [exact Nl|]. cbn [app]. constructor.
  - rewrite in_app_iff. intros [H|H]; [exact (Hb H)|]. exact (D b (or_introl eq_refl) H).
  - apply IH. intros b' Hb'. apply D. now right.
Qed.
Lemma flat_perm {A B} (g : A -> list B) (key : B -> A) l L : NoDup l -> (forall p, In p l -> NoDup (g p)) -> (forall p b, In p l -> In b (g p) -> key b = p) -> NoDup L ->
  (forall b, In b L <-> exists p, In p l /\ In b (g p)) -> Permutation L (flat_map g l).
Proof.
  intros Nl Ng K NL H. apply NoDup_Permutation; [exact NL|now apply (flat_nodup g key)|]. intros b. rewrite in_flat_map. apply H.
Qed.

(* ---------- row flags ---------- *)
Lemma merged_contributes n m k map1 map2 f g h : merged n m map1 f g -> merged m k map2 g h -> (forall i, (i < n)%nat -> (map1 i < m)%nat) ->
  forall i r, (i < n)%nat -> (r < k)%nat -> map2 (map1 i) = r ->
  (contributes f h i r <-> contributes f g i (map1 i) /\ contributes g h (map1 i) r).
Proof.
  intros M1 M2 B i r Hi Hr E. unfold contributes. destruct f as [f|], g as [g|], h as [h|]; cbn in M1, M2; try tauto.
  destruct M1 as [F M1], M2 as [G M2]. destruct (M1 (map1 i) (B i Hi)) as [g01 gall], (M2 r Hr) as [h01 hall]. destruct (F i Hi) as [fi|fi].
  - assert (gi : g (map1 i) = 0%Z). { destruct g01 as [z|z]; [exact z|]. pose proof (proj1 gall z i Hi eq_refl). lia. } rewrite fi, gi. intuition congruence.
  - rewrite fi. split.
    + intros hr. symmetry in hr. pose proof (proj1 hall hr (map1 i) (B i Hi) E). lia.
    + intros [a b]. congruence.
Qed.

(* ---------- the cell of a bin, from the cells of its parts ---------- *)
Definition unit_vis (un : bool) (W t : R) : R := if Req_EM_T W 0 then (if un then t else 0) else t / W.
Definition unit_sigma (un : bool) (W t : R) : R := if Req_EM_T W 0 then (if un then t else 0) else sqrt (t / (W * W)).
Lemma unit_vis_back {A} (w v : A -> R) un l : (forall a, In a l -> 0 <= w a) ->
  unit_vis un (tot w l) (tot (fun a => v a * w a) l) * tot w l = tot (fun a => v a * w a) l.
Proof.
  intros N. unfold unit_vis. destruct (Req_EM_T (tot w l) 0) as [E|E]; [|field; exact E]. rewrite E, Rmult_0_r. symmetry. apply tot_0.
  intros a Ha. rewrite (tot_zero w l N E a Ha). ring.
Qed.
Lemma unit_sigma_back {A} (w s : A -> R) un l : (forall a, In a l -> 0 <= w a) ->
  let S := tot (fun a => (s a * s a) * (w a * w a)) l in
  (unit_sigma un (tot w l) S * unit_sigma un (tot w l) S) * (tot w l * tot w l) = S.
Proof.
  intros N S. unfold unit_sigma. destruct (Req_EM_T (tot w l) 0) as [E|E].
  - rewrite E. rewrite !Rmult_0_r. symmetry. apply tot_0. intros a Ha. rewrite (tot_zero w l N E a Ha). ring.
  - assert (0 <= S). { apply tot_nonneg. intros a _. replace (s a * s a * (w a * w a)) with (Rsqr (s a * w a)) by (unfold Rsqr; ring). apply Rle_0_sqr. }
    assert (0 < tot w l * tot w l) by nra. rewrite sqrt_sqrt; [field; exact E|]. apply Rmult_le_pos; [assumption|]. left. now apply Rinv_0_lt_compat.
Qed.

Definition cell_of (x : chan_cols RK) (ws : arr3 R) c (un : bool) (l : list (nat * nat)) (o : out_cell RK) : Prop :=
  let w p := ws (fst p) (snd p) c in
  oc_flag RK o = (if un then 0 else 1)%Z /\ oc_wspec RK o = tot w l /\
  (forall v, in_vis RK x = Some v -> oc_vis RK o =
     (unit_vis un (tot w l) (tot (fun p => fst (v (fst p) (snd p) c) * w p) l), unit_vis un (tot w l) (tot (fun p => snd (v (fst p) (snd p) c) * w p) l))) /\
  (forall s, in_sspec RK x = Some s -> oc_sspec RK o =
     unit_sigma un (tot w l) (tot (fun p => (s (fst p) (snd p) c * s (fst p) (snd p) c) * (w p * w p)) l)).
Lemma cell_cells n nchan ncorr orows ochans rmap cmap fr o x ws out : in_wspec RK x = Some ws ->
  row_chan_average RK n nchan ncorr orows ochans rmap cmap fr o x = Ok out ->
  forall r f c, (r < orows)%nat -> (f < ochans)%nat -> (c < ncorr)%nat -> exists lu lf un,
    ascending2 n nchan (fun i ch => rmap i = r /\ cmap ch = f /\ contributes fr o i r /\ ~ sample_flagged RK x i ch c) lu /\
    ascending2 n nchan (fun i ch => rmap i = r /\ cmap ch = f /\ contributes fr o i r /\ sample_flagged RK x i ch c) lf /\
    (un = true <-> lu <> []) /\ cell_of x ws c un (if un then lu else lf) (out r f c).
Proof.
  intros W E r f c Hr Hf Hc. destruct (row_chan_average_spec RK n nchan ncorr orows ochans rmap cmap fr o x out E r f c Hr Hf Hc)
    as (lu & lf & l & A & B & N & Cs & V & Wt & S).
  assert (SW : forall i ch, sample_weight RK x i ch c = Some (ws i ch c)) by (intros; unfold sample_weight; rewrite W; reflexivity).
  assert (EW : lsum (fadd RK) (f0 RK) (fun p => weight_or_1 RK (sample_weight RK x (fst p) (snd p) c)) l = tot (fun p => ws (fst p) (snd p) c) l).
  { rewrite lsum_R. apply tot_ext. intros p _. rewrite SW. reflexivity. }
  rewrite EW in V, S.
  assert (exists un, (un = true <-> lu <> []) /\ l = (if un then lu else lf) /\ oc_flag RK (out r f c) = (if un then 0 else 1)%Z) as (un & U & -> & F).
  { destruct Cs as [(a & -> & e)|(-> & -> & e)]; [exists true|exists false]; (split; [|split; [reflexivity|exact e]]); [tauto|]. split; [discriminate|congruence]. }
  exists lu, lf, un. split; [exact A|]. split; [exact B|]. split; [exact U|].
  assert (ML : forall (T : Type) (a b : T), match lu with [] => a | _ => b end = (if un then b else a)).
  { intros T a b. destruct un; destruct lu; try reflexivity; [destruct (proj1 U eq_refl eq_refl)|].
    assert (X : false = true) by (apply U; discriminate). discriminate X. }
  unfold cell_of. cbv zeta. split; [exact F|]. split; [rewrite (Wt ws W), lsum_R; reflexivity|]. split.
  - intros v Hv. rewrite (V v Hv), lsum_C, ML. cbn [fnonzero RK rounded_cols cdiv c0 fst snd]. unfold rne, unit_vis.
    rewrite (tot_ext (fun a => fst (weighted RK (v (fst a) (snd a) c) (sample_weight RK x (fst a) (snd a) c))) (fun p => fst (v (fst p) (snd p) c) * ws (fst p) (snd p) c)) by (intros p _; rewrite SW; reflexivity).
    rewrite (tot_ext (fun a => snd (weighted RK (v (fst a) (snd a) c) (sample_weight RK x (fst a) (snd a) c))) (fun p => snd (v (fst p) (snd p) c) * ws (fst p) (snd p) c)) by (intros p _; rewrite SW; reflexivity).
    destruct (Req_EM_T _ 0); [|reflexivity]. destruct un; reflexivity.
  - intros s Hs. rewrite (S s Hs), lsum_R, ML. cbn [fnonzero RK rounded_cols fdiv fsqrt f0]. unfold rne, unit_sigma.
    rewrite (tot_ext (fun a => weighted2 RK (s (fst a) (snd a) c) (sample_weight RK x (fst a) (snd a) c)) (fun p => s (fst p) (snd p) c * s (fst p) (snd p) c * (ws (fst p) (snd p) c * ws (fst p) (snd p) c))) by (intros p _; rewrite SW; reflexivity).
    destruct (Req_EM_T _ 0); reflexivity.
Qed.

Section Steps.
  Context (n nchan ncorr m1 k1 m2 k2 : nat) (rmap1 cmap1 rmap2 cmap2 : arr nat) (fr0 fr1 fr2 : option (arr Z)) (x : chan_cols RK) (ws : arr3 R) (out1 out2 : arr3 (out_cell RK)).
  Context (R1 : forall i, (i < n)%nat -> (rmap1 i < m1)%nat) (C1 : forall ch, (ch < nchan)%nat -> (cmap1 ch < k1)%nat).
  Context (M1 : merged n m1 rmap1 fr0 fr1) (M2 : merged m1 m2 rmap2 fr1 fr2).
  Context (W : in_wspec RK x = Some ws) (W0 : forall i ch c, (i < n)%nat -> (ch < nchan)%nat -> (c < ncorr)%nat -> 0 <= ws i ch c).
  Context (E1 : row_chan_average RK n nchan ncorr m1 k1 rmap1 cmap1 fr0 fr1 x = Ok out1).
  Context (E2 : row_chan_average RK m1 k1 ncorr m2 k2 rmap2 cmap2 fr1 fr2 (averaged x out1) = Ok out2).
  Let rmap : arr nat := fun i => rmap2 (rmap1 i).
  Let cmap : arr nat := fun ch => cmap2 (cmap1 ch).
  Let merge i r (Hi : (i < n)%nat) (Hr : (r < m2)%nat) (E : rmap2 (rmap1 i) = r) := merged_contributes n m1 m2 rmap1 rmap2 fr0 fr1 fr2 M1 M2 R1 i r Hi Hr E.

  Lemma steps_total : exists out, row_chan_average RK n nchan ncorr m2 k2 rmap cmap fr0 fr2 x = Ok out.
  Proof using R1 C1 M1 M2 E1 E2.
    apply row_chan_average_raises. intros r f c Hr Hf Hc.
    destruct (proj2 (row_chan_average_raises RK m1 k1 ncorr m2 k2 rmap2 cmap2 fr1 fr2 (averaged x out1)) (ex_intro _ out2 E2) r f c Hr Hf Hc) as (j & h & Hj & Hh & Ej & Eh & Cj).
    destruct (proj2 (row_chan_average_raises RK n nchan ncorr m1 k1 rmap1 cmap1 fr0 fr1 x) (ex_intro _ out1 E1) j h c Hj Hh Hc) as (i & ch & Hi & Hch & Ei & Ech & Ci).
    exists i, ch. subst rmap cmap. cbv beta. subst j h. repeat (split; [assumption|]). apply merge; auto.
  Qed.
  Lemma steps_cells out : row_chan_average RK n nchan ncorr m2 k2 rmap cmap fr0 fr2 x = Ok out ->
    forall r f c, (r < m2)%nat -> (f < k2)%nat -> (c < ncorr)%nat -> same_cell x (out2 r f c) (out r f c).
  Proof using R1 C1 M1 M2 W W0 E1 E2.
    intros E r f c Hr Hf Hc.
    destruct (cell_cells _ _ _ _ _ _ _ _ _ _ _ _ W E r f c Hr Hf Hc) as (LU & LF & UN & [SU AU] & [SF AF] & HU & HC).
    assert (W' : in_wspec RK (averaged x out1) = Some (fun r f c => oc_wspec RK (out1 r f c))) by (cbn; rewrite W; reflexivity).
    destruct (cell_cells _ _ _ _ _ _ _ _ _ _ _ _ W' E2 r f c Hr Hf Hc) as (lu2 & lf2 & un2 & [Su2 Au2] & [Sf2 Af2] & Hu2 & Hc2).
    (* the parts of a bin *)
    pose (Q := fun (p : nat * nat) (g : list (nat * nat) * list (nat * nat) * bool) =>
      NoDup (fst (fst g)) /\ NoDup (snd (fst g)) /\
      (forall i ch, In (i, ch) (fst (fst g)) <-> (i < n)%nat /\ (ch < nchan)%nat /\ rmap1 i = fst p /\ cmap1 ch = snd p /\ contributes fr0 fr1 i (fst p) /\ ~ sample_flagged RK x i ch c) /\
      (forall i ch, In (i, ch) (snd (fst g)) <-> (i < n)%nat /\ (ch < nchan)%nat /\ rmap1 i = fst p /\ cmap1 ch = snd p /\ contributes fr0 fr1 i (fst p) /\ sample_flagged RK x i ch c) /\
      (snd g = true <-> fst (fst g) <> []) /\ cell_of x ws c (snd g) (if snd g then fst (fst g) else snd (fst g)) (out1 (fst p) (snd p) c)).
    destruct (list_choice Q ([], [], true) (all_pairs m1 k1)) as [g G].
    { intros [j h] Hp. apply in_prod_iff in Hp. rewrite !in_seq in Hp. destruct Hp as [Hj Hh].
      destruct (cell_cells _ _ _ _ _ _ _ _ _ _ _ _ W E1 j h c ltac:(lia) ltac:(lia) Hc) as (lu & lf & un & [Su Au] & [Sf Af] & Hu & Hcell).
      exists (lu, lf, un). unfold Q. cbn [fst snd]. split; [now apply sorted_nodup|]. split; [now apply sorted_nodup|]. repeat (split; [assumption|]). assumption. }
    assert (G' : forall j h, (j < m1)%nat -> (h < k1)%nat -> Q (j, h) (g (j, h))).
    { intros j h Hj Hh. apply G. apply in_prod_iff. rewrite !in_seq. lia. }
    assert (Fl : forall j h, (j < m1)%nat -> (h < k1)%nat -> (sample_flagged RK (averaged x out1) j h c <-> snd (g (j, h)) = false)).
    { intros j h Hj Hh. destruct (G' j h Hj Hh) as (_ & _ & Au & Af & Hu & (F & _)). cbn [fst snd] in *. unfold sample_flagged. cbn [averaged in_flag].
      destruct (in_flag RK x) as [fl|] eqn:Efl; cbn [kept].
      - rewrite F. destruct (snd (g (j, h))); split; congruence.
      - split; [intros []|]. intros Un.
        (* with no flags at all, a bin has unflagged samples *)
        destruct (proj2 (row_chan_average_raises RK n nchan ncorr m1 k1 rmap1 cmap1 fr0 fr1 x) (ex_intro _ out1 E1) j h c Hj Hh Hc) as (i & ch & Hi & Hch & Ei & Ech & Ci).
        assert (X : In (i, ch) (fst (fst (g (j, h))))).
        { apply Au. repeat (split; [assumption|]). unfold sample_flagged. rewrite Efl. tauto. }
        assert (Y : snd (g (j, h)) = true) by (apply Hu; intros Z; rewrite Z in X; destruct X). congruence. }
    pose (key := fun b : nat * nat => (rmap1 (fst b), cmap1 (snd b))).
    pose (part := fun p => if snd (g p) then fst (fst (g p)) else snd (fst (g p))).
    assert (In2 : forall j h, (In (j, h) lu2 \/ In (j, h) lf2) -> (j < m1)%nat /\ (h < k1)%nat).
    { intros j h [H|H]; [apply Au2 in H|apply Af2 in H]; tauto. }
    (* an unflagged sample makes both sums unflagged *)
    assert (Same : un2 = UN).
    { apply Bool.eq_iff_eq_true. rewrite Hu2, HU. split; intros N Z; apply N; clear N.
      - subst LU. destruct lu2 as [|[j h] t]; [reflexivity|exfalso]. destruct (proj1 (Au2 j h) (or_introl eq_refl)) as (Hj & Hh & Ej & Eh & Cj & NF).
        rewrite (Fl j h Hj Hh) in NF. destruct (G' j h Hj Hh) as (_ & _ & Au & _ & Hu & _). cbn [fst snd] in *.
        assert (T : snd (g (j, h)) = true) by (destruct (snd (g (j, h))); congruence). apply Hu in T.
        destruct (fst (fst (g (j, h)))) as [|[i ch] u] eqn:Eg; [congruence|]. destruct (proj1 (Au i ch) (or_introl eq_refl)) as (Hi & Hch & Ei & Ech & Ci & NF').
        apply (AU i ch). repeat (split; [assumption|]). subst rmap cmap. cbv beta. rewrite Ei, Ech. repeat (split; [assumption|]). split; [|exact NF'].
        apply merge; [exact Hi|exact Hr|congruence|]. rewrite Ei. split; [exact Ci|exact Cj].
      - subst lu2. destruct LU as [|[i ch] t]; [reflexivity|exfalso]. destruct (proj1 (AU i ch) (or_introl eq_refl)) as (Hi & Hch & Ei & Ech & Ci & NF).
        apply merge in Ci; [|exact Hi|exact Hr|exact Ei]. destruct Ci as [Ci Cj].
        apply (Au2 (rmap1 i) (cmap1 ch)). split; [now apply R1|]. split; [now apply C1|]. repeat (split; [assumption|]). rewrite (Fl _ _ (R1 i Hi) (C1 ch Hch)).
        destruct (G' _ _ (R1 i Hi) (C1 ch Hch)) as (_ & _ & Au & _ & Hu & _). cbn [fst snd] in *.
        assert (T : snd (g (rmap1 i, cmap1 ch)) = true); [|congruence]. apply Hu. intros Z. assert (X : In (i, ch) []); [|destruct X].
        rewrite <- Z. apply Au. repeat (split; [tauto|]). exact NF. }
    subst un2. set (L := if UN then LU else LF) in *. set (l2 := if UN then lu2 else lf2) in *.
    assert (In2' : forall j h, In (j, h) l2 -> (j < m1)%nat /\ (h < k1)%nat /\ rmap2 j = r /\ cmap2 h = f /\ contributes fr1 fr2 j r /\ snd (g (j, h)) = UN).
    { intros j h H. assert (HB : (j < m1)%nat /\ (h < k1)%nat) by (apply In2; unfold l2 in H; destruct UN; [now left|now right]). destruct HB as [Hj Hh].
      unfold l2 in H. destruct UN; [apply Au2 in H|apply Af2 in H]; rewrite (Fl j h Hj Hh) in H; repeat (split; [tauto|]); [|tauto].
      destruct (snd (g (j, h))); tauto. }
    assert (P : Permutation L (flat_map part l2)).
    { apply (flat_perm part key).
      - unfold l2. destruct UN; now apply sorted_nodup.
      - intros [j h] H. apply In2' in H. destruct (G' j h ltac:(tauto) ltac:(tauto)) as (N1 & N2 & _). unfold part. destruct (snd (g (j, h))); assumption.
      - intros [j h] [i ch] H Hin. apply In2' in H. destruct (G' j h ltac:(tauto) ltac:(tauto)) as (_ & _ & Au & Af & _). cbn [fst snd] in *. unfold key, part in *. cbn [fst snd].
        destruct (snd (g (j, h))); [apply Au in Hin|apply Af in Hin]; f_equal; tauto.
      - unfold L. destruct UN; now apply sorted_nodup.
      - intros [i ch]. split.
        + intros Hin. assert (HH : (i < n)%nat /\ (ch < nchan)%nat /\ rmap2 (rmap1 i) = r /\ cmap2 (cmap1 ch) = f /\ contributes fr0 fr2 i r /\ (if UN then ~ sample_flagged RK x i ch c else sample_flagged RK x i ch c)).
          { unfold L in Hin. destruct UN; [apply AU in Hin|apply AF in Hin]; exact Hin. }
          destruct HH as (Hi & Hch & Ei & Ech & Ci & NF). apply merge in Ci; [|exact Hi|exact Hr|exact Ei]. destruct Ci as [Ci Cj].
          destruct (G' _ _ (R1 i Hi) (C1 ch Hch)) as (_ & _ & Au & Af & Hu & _). cbn [fst snd] in *.
          assert (T : snd (g (rmap1 i, cmap1 ch)) = UN).
          { destruct UN.
            - apply Hu. intros Z. assert (X : In (i, ch) []); [|destruct X]. rewrite <- Z. apply Au. repeat (split; [tauto|]). exact NF.
            - destruct (snd (g (rmap1 i, cmap1 ch))) eqn:T; [|reflexivity]. exfalso. apply proj1 in Hu. specialize (Hu eq_refl).
              assert (N : lu2 = []). { destruct lu2 as [|q t]; [reflexivity|]. assert (X : false = true) by (apply Hu2; discriminate). discriminate X. }
              assert (X : In (rmap1 i, cmap1 ch) lu2); [|rewrite N in X; destruct X].
              apply Au2. split; [now apply R1|]. split; [now apply C1|]. repeat (split; [assumption|]). rewrite (Fl _ _ (R1 i Hi) (C1 ch Hch)). congruence. }
          exists (rmap1 i, cmap1 ch). split.
          * unfold l2. destruct UN; [apply Au2|apply Af2]; (split; [now apply R1|]); (split; [now apply C1|]); repeat (split; [assumption|]); rewrite (Fl _ _ (R1 i Hi) (C1 ch Hch)); congruence.
          * unfold part. rewrite T. destruct UN; [apply Au|apply Af]; repeat (split; [tauto|]); exact NF.
        + intros ([j h] & Hp & Hin). apply In2' in Hp. destruct Hp as (Hj & Hh & Ej & Eh & Cj & T). destruct (G' j h Hj Hh) as (_ & _ & Au & Af & _). cbn [fst snd] in *.
          unfold part in Hin. rewrite T in Hin.
          assert (HH : (i < n)%nat /\ (ch < nchan)%nat /\ rmap1 i = j /\ cmap1 ch = h /\ contributes fr0 fr1 i j /\ (if UN then ~ sample_flagged RK x i ch c else sample_flagged RK x i ch c)).
          { destruct UN; [apply Au in Hin|apply Af in Hin]; exact Hin. }
          destruct HH as (Hi & Hch & Ei & Ech & Ci & NF).
          assert (Ci' : contributes fr0 fr2 i r). { apply merge; [exact Hi|exact Hr|congruence|]. rewrite Ei. split; [exact Ci|exact Cj]. }
          unfold L. destruct UN; [apply AU|apply AF]; subst rmap cmap; cbv beta; rewrite Ei, Ech; repeat (split; [assumption|]); exact NF. }
    (* sums over the whole bin *)
    pose (w := fun p : nat * nat => ws (fst p) (snd p) c).
    assert (Wp : forall j h, In (j, h) l2 -> forall a, In a (part (j, h)) -> 0 <= w a).
    { intros j h H [i ch] Hin. apply In2' in H. destruct (G' j h ltac:(tauto) ltac:(tauto)) as (_ & _ & Au & Af & _). cbn [fst snd] in *. unfold part in Hin.
      unfold w. cbn [fst snd]. destruct (snd (g (j, h))); [apply Au in Hin|apply Af in Hin]; apply W0; tauto. }
    assert (Cp : forall p, In p l2 -> cell_of x ws c UN (part p) (out1 (fst p) (snd p) c)).
    { intros [j h] H. apply In2' in H. destruct (G' j h ltac:(tauto) ltac:(tauto)) as (_ & _ & _ & _ & _ & HH). cbn [fst snd] in *. unfold part. destruct H as (_ & _ & _ & _ & _ & T). rewrite T in *. exact HH. }
    destruct HC as (CF & CW & CV & CS). destruct Hc2 as (CF2 & CW2 & CV2 & CS2). cbn [fst snd] in *.
    assert (EW : tot (fun p => oc_wspec RK (out1 (fst p) (snd p) c)) l2 = tot w L).
    { rewrite (tot_perm w _ _ P), tot_flat. apply tot_ext. intros p Hp. destruct (Cp p Hp) as (_ & e & _). exact e. }
    unfold same_cell. split; [congruence|]. split; [rewrite CW2, CW; exact EW|]. split.
    - intros Nv. destruct (in_vis RK x) as [v|] eqn:Ev; [|congruence]. rewrite (CV v eq_refl). erewrite CV2 by (cbn; rewrite Ev; reflexivity).
      rewrite EW. fold w.
      f_equal; f_equal; rewrite (tot_perm _ _ _ P), tot_flat; apply tot_ext; intros [j h] Hp; destruct (Cp _ Hp) as (_ & e & e' & _); cbn [fst snd] in *;
        rewrite (e' v Ev), e; cbn [fst snd]; apply unit_vis_back; exact (Wp j h Hp).
    - intros Ns. destruct (in_sspec RK x) as [s|] eqn:Es; [|congruence]. rewrite (CS s eq_refl). erewrite CS2 by (cbn; rewrite Es; reflexivity).
      rewrite EW. fold w. f_equal. rewrite (tot_perm _ _ _ P), tot_flat. apply tot_ext. intros [j h] Hp. destruct (Cp _ Hp) as (_ & e & _ & e'). cbn [fst snd] in *.
      rewrite (e' s Es), e. apply (unit_sigma_back w (fun p => s (fst p) (snd p) c)). exact (Wp j h Hp).
  Qed.
End Steps.
