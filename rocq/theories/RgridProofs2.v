(* Normalised grids, the comparison with the exact gridder, and double precision. *)
From Coq Require Import String Reals Lra Lia.
From Verif Require Import Prelude PreludeFacts CRing CplxR LoopFacts DftSpec StokesGridModel FacetModel GridModel GridSpec GridProofs GridProofs2 GridProofs5
  RoundModel RoundSpec RoundProofs4 RavgProofs RhogSpec RhogProofs3 RcohProofs2 RgridModel RgridSpec RgridProofs.
Open Scope nat_scope.
Close Scope string_scope.
Close Scope R_scope.

Lemma quotient_near (fl : R -> R) u (Hu : roundoff fl u) v' v m d' d g :
  (Rabs (v' - v) <= g * m -> Rabs v <= m -> Rabs (d' - d) <= g * d -> 0 < d -> 0 <= g < 1 ->
  Rabs (fl (v' / d') - v / d) <= quotient_error u g * (m / d))%R.
Proof.
  intros Hv Hm Hd Dp Hg. destruct Hu as (U & F).
  assert (D' : ((1 - g) * d <= d')%R). { pose proof (Rle_abs (- (d' - d))) as Q. rewrite Rabs_Ropp in Q. lra. }
  assert (P : (0 < (1 - g) * d)%R) by (apply Rmult_lt_0_compat; lra).
  assert (P' : (0 < d')%R) by lra.
  assert (M0 : (0 <= m)%R) by (pose proof (Rabs_pos v); lra).
  assert (E : (Rabs (v' / d' - v / d) <= 2 * g / (1 - g) * (m / d))%R).
  { replace (v' / d' - v / d)%R with ((v' - v) / d' + v / d * ((d - d') / d'))%R by (field; lra).
    eapply Rle_trans; [apply Rabs_triang|].
    replace (2 * g / (1 - g) * (m / d))%R with (g * m / ((1 - g) * d) + m / d * (g * d / ((1 - g) * d)))%R by (field; lra).
    assert (I : (/ d' <= / ((1 - g) * d))%R) by (apply Rinv_le_contravar; lra).
    assert (I0 : (0 < / d')%R) by (apply Rinv_0_lt_compat; lra).
    apply Rplus_le_compat.
    - unfold Rdiv. rewrite Rabs_mult, (Rabs_pos_eq (/ d')) by lra. apply Rmult_le_compat; try lra. apply Rabs_pos.
    - rewrite Rabs_mult. apply Rmult_le_compat; try apply Rabs_pos.
      + unfold Rdiv. rewrite Rabs_mult, (Rabs_pos_eq (/ d)) by (apply Rlt_le, Rinv_0_lt_compat; lra). apply Rmult_le_compat_r; [apply Rlt_le, Rinv_0_lt_compat; lra|lra].
      + unfold Rdiv. rewrite Rabs_mult, (Rabs_pos_eq (/ d')) by lra. rewrite Rabs_minus_sym. apply Rmult_le_compat; try lra. apply Rabs_pos. }
  assert (B : (Rabs (v / d) <= m / d)%R). { unfold Rdiv. rewrite Rabs_mult, (Rabs_pos_eq (/ d)) by (apply Rlt_le, Rinv_0_lt_compat; lra). apply Rmult_le_compat_r; [apply Rlt_le, Rinv_0_lt_compat; lra|lra]. }
  pose proof (F (v' / d')%R) as R1.
  assert (B' : (Rabs (v' / d') <= 2 * g / (1 - g) * (m / d) + m / d)%R).
  { replace (v' / d')%R with ((v' / d' - v / d) + v / d)%R by ring. eapply Rle_trans; [apply Rabs_triang|]. lra. }
  replace (fl (v' / d') - v / d)%R with ((fl (v' / d') - v' / d') + (v' / d' - v / d))%R by ring. eapply Rle_trans; [apply Rabs_triang|].
  unfold quotient_error.
  assert (u * Rabs (v' / d') <= u * (2 * g / (1 - g) * (m / d) + m / d))%R by (apply Rmult_le_compat_l; lra). lra.
Qed.
Lemma rsum_nonneg n f : (forall i, i < n -> (0 <= f i)%R) -> (0 <= rsum n f)%R.
Proof. induction n as [|n IH]; intros H; [apply Rle_refl|]. rewrite rsum_S. apply Rplus_le_le_0_compat; [apply IH; intros; apply H; lia|apply H; lia]. Qed.
Lemma weight_positive K W os nrow nchan cm fu fv b : (forall i, (0 <= K i)%R) ->
  weight_sum (positive K) W os nrow nchan cm fu fv b = weight_sum K W os nrow nchan cm fu fv b /\ (0 <= weight_sum K W os nrow nchan cm fu fv b)%R.
Proof.
  intros H. split.
  - assert (A : forall f, all_taps (positive K) W os f = all_taps K W os f). { intros f. unfold all_taps. apply (csum_ext (K := RR)). intros t _. apply Rabs_pos_eq, H. }
    unfold weight_sum, over_band. apply (csum_ext (K := RR)). intros r _. apply (csum_ext (K := RR)). intros c _. destruct (Nat.eqb (cm c) b); [|reflexivity]. now rewrite !A.
  - unfold weight_sum, over_band. apply rsum_nonneg. intros r _. apply rsum_nonneg. intros c _. destruct (Nat.eqb (cm c) b); [|apply Rle_refl].
    apply Rmult_le_pos; apply rsum_nonneg; intros t _; apply H.
Qed.
Section Normal.
  Context (fl : R -> R) (u : R) (Hu : roundoff fl u).
  Lemma normal_near K W os npix nrow nchan cm su sv du fu dv fv s : W mod 2 = 1 -> 0 < os ->
    all_placed os npix nrow nchan su du fu -> all_placed os npix nrow nchan sv dv fv -> (forall i, (0 <= K i)%R) ->
    let g := gamma u (nrow * nchan + W * W + 2) in (g < 1)%R ->
    exists G w, stack_rounded fl unpacked_index nrow nchan cm su sv npix s (kernel_of K W os) = Ok (G, w) /\
    forall b part y x, part = fst \/ part = snd -> y < npix -> x < npix ->
      let d := (weight_sum K W os nrow nchan cm fu fv b + 1 / 100000000)%R in
      (Rabs (part (normalised fl (fl (1 / 100000000)) (G b) (w b) y x) - cell_sum K W os nrow nchan cm du fu dv fv (parts part s) b y x / d) <=
       quotient_error u g * (cell_sum K W os nrow nchan cm du fu dv fv (sizes_of (parts part s)) b y x / d))%R.
  Proof.
    intros HW Ho Pu Pv HK g Hg.
    destruct (stack_value fl u Hu K W os npix nrow nchan cm su sv du fu dv fv HW Ho Pu Pv s) as (G & w & E & H). exists G, w. split; [exact E|].
    intros b part y x Hp Hy Hx d. destruct (H b) as (H1 & H2). specialize (H1 part y x Hp Hy Hx). destruct (weight_positive K W os nrow nchan cm fu fv b HK) as (Ew & Pw). rewrite Ew in H2.
    assert (EK : cell_sum (positive K) W os nrow nchan cm du fu dv fv (sizes_of (parts part s)) b y x = cell_sum K W os nrow nchan cm du fu dv fv (sizes_of (parts part s)) b y x).
    { unfold cell_sum, over_band. apply (csum_ext (K := RR)). intros r _. apply (csum_ext (K := RR)). intros c _. destruct (Nat.eqb (cm c) b); [|reflexivity]. rewrite !tap_positive.
      assert (T : forall d f z, (0 <= tap K W os d f z)%R) by (intros; unfold tap; destruct (_ <=? _)%Z; [apply HK|lra]). now rewrite !Rabs_pos_eq by apply T. }
    rewrite EK in H1.
    assert (N : near u (nrow * nchan + W * W + 2) (fl (w b + fl (1 / 100000000))) d d).
    { replace (nrow * nchan + W * W + 2) with (S (nrow * nchan + W * W + 1)) by lia. apply (near_fl fl u Hu). unfold d. apply near_plus; [exact H2|].
      apply (near_mono fl u Hu 1); [lia|]. apply (near_fl fl u Hu 0). pose proof (near_self u (1 / 100000000)) as N. rewrite Rabs_pos_eq in N by lra. exact N. }
    apply (near_mono fl u Hu _ (nrow * nchan + W * W + 2)) in H1; [|lia].
    assert (Hn : part (normalised fl (fl (1 / 100000000)) (G b) (w b) y x) = fl (part (G b y x) / fl (w b + fl (1 / 100000000)))%R) by (destruct Hp as [->| ->]; reflexivity).
    rewrite Hn. apply (quotient_near fl u Hu _ _ _ _ d g); try apply H1; try apply N.
    - unfold d. lra.
    - split; [apply (gamma_pos fl u Hu)|exact Hg].
  Qed.
End Normal.
(* parts of sums of complex numbers *)
Lemma part_over part nrow nchan cm b (f : nat -> nat -> RC) : part = fst \/ part = snd ->
  part (over_band nrow nchan cm b f) = over_band (K := RR) nrow nchan cm b (fun r c => part (f r c)).
Proof.
  intros Hp. unfold over_band.
  assert (A : forall n (h : nat -> RC), part (csum n h) = csum (K := RR) n (fun i => part (h i))).
  { induction n as [|n IH]; intros h; [destruct Hp as [->| ->]; reflexivity|]. cbn [csum]. rewrite <- IH. destruct Hp as [->| ->]; reflexivity. }
  rewrite A. apply (csum_ext (K := RR)). intros r _. rewrite A. apply (csum_ext (K := RR)). intros c _. destruct (Nat.eqb (cm c) b); [reflexivity|destruct Hp as [->| ->]; reflexivity].
Qed.
Lemma cell_part part K W os nrow nchan cm du fu dv fv (s : arr2 RC) b y x q : part = fst \/ part = snd ->
  part (cmul (over_band nrow nchan cm b (fun r c => cmul (ofR (tap K W os (dv r c) (fv r c) y * tap K W os (du r c) (fu r c) x)%R) (s r c))) (ofR q)) =
  (cell_sum K W os nrow nchan cm du fu dv fv (parts part s) b y x * q)%R.
Proof.
  intros Hp. transitivity (part (over_band nrow nchan cm b (fun r c => cmul (ofR (tap K W os (dv r c) (fv r c) y * tap K W os (du r c) (fu r c) x)%R) (s r c))) * q)%R.
  - destruct Hp as [->| ->]; cbn; ring.
  - rewrite (part_over part) by exact Hp. f_equal. unfold cell_sum, over_band. apply (csum_ext (K := RR)). intros r _. apply (csum_ext (K := RR)). intros c _. destruct (Nat.eqb (cm c) b); [|reflexivity].
    unfold parts. destruct Hp as [->| ->]; cbn; ring.
Qed.
Lemma double_quotient k : (INR k <= 2000000000)%R -> (gamma (/ 2 ^ 53) k < 1 /\ quotient_error (/ 2 ^ 53) (gamma (/ 2 ^ 53) k) <= / 10 ^ 6)%R.
Proof.
  intros Hk. pose proof (pos_INR k) as P. set (u := (/ 2 ^ 53)%R).
  assert (U : (0 < u <= / 9000000000000000)%R).
  { unfold u. split; [apply Rinv_0_lt_compat; lra|apply Rinv_le_contravar; lra]. }
  assert (KU : (INR k * u <= 3 / 10000000)%R).
  { eapply Rle_trans; [apply Rmult_le_compat; [exact P|lra|exact Hk|apply U]|]. lra. }
  assert (KU0 : (0 <= INR k * u)%R) by (apply Rmult_le_pos; lra).
  assert (G : (gamma u k <= 31 / 100000000)%R).
  { eapply Rle_trans; [apply gamma_bound; lra|]. apply (Rmult_le_reg_r (1 - INR k * u)); [lra|]. unfold Rdiv at 1. rewrite Rmult_assoc, Rinv_l by lra. lra. }
  assert (G0 : (0 <= gamma u k)%R). { unfold gamma. assert (1 <= (1 + u) ^ k)%R; [apply pow_R1_Rle; lra|lra]. }
  split; [lra|]. unfold quotient_error.
  assert (Q : (2 * gamma u k / (1 - gamma u k) <= 63 / 100000000)%R).
  { apply (Rmult_le_reg_r (1 - gamma u k)); [lra|]. unfold Rdiv at 1. rewrite Rmult_assoc, Rinv_l by lra. lra. }
  assert (Q0 : (0 <= 2 * gamma u k / (1 - gamma u k))%R). { apply Rmult_le_pos; [lra|]. apply Rlt_le, Rinv_0_lt_compat. lra. }
  nra.
Qed.
(* one cell, three visibilities *)
Definition swap (r : nat) : nat := match r with 1 => 2 | 2 => 1 | _ => r end.
Definition three (r c : nat) : RC := match r with 0 => (1, 0)%R | 1 => (tiny, 0)%R | _ => (-1, 0)%R end.
Definition one_tap : kernel := kernel_of (fun _ => 1%R) 1 1.
Lemma middle : placed 1 (position 1 0) 0 0.
Proof.
  unfold placed, position. change (1 / 2) with 0. cbn [INR]. rewrite Rplus_0_r. split.
  - left. rewrite Rminus_0_r, Rabs_R0. lra.
  - unfold truncated. cbn [INR]. split; intros; lra.
Qed.
Lemma one_cell grid s : exists g cw, scatter_rounded (RoundModel.nearest 53) unpacked_index 0 0 1 grid s one_tap = Ok (g, cw) /\
  g 0 0 = (RoundModel.nearest 53 (fst (grid 0%nat 0%nat) + RoundModel.nearest 53 (fst s)), RoundModel.nearest 53 (snd (grid 0%nat 0%nat) + RoundModel.nearest 53 (snd s)))%R.
Proof.
  destruct (scatter_rounded_value _ _ nearest_53 (fun _ => 1%R) 1 1 1 0 0 0 0 0 0 eq_refl ltac:(lia) middle middle grid s) as (g & cw & E & H & _).
  exists g, cw. split; [exact E|]. rewrite H by lia.
  assert (F1 : RoundModel.nearest 53 (1 * 1)%R = 1%R) by (rewrite Rmult_1_r; apply fl_exact, fmt_1).
  change (touched 1 0 0) with true. cbn [andb]. unfold add_tap. change (tap (fun _ => 1%R) 1 1 0 0 0) with 1%R. now rewrite F1, !Rmult_1_l.
Qed.
Lemma three_cells (s : arr2 RC) : exists G w, stack_rounded (RoundModel.nearest 53) unpacked_index 3 1 (fun _ => 0) (fun _ _ => 0%R) (fun _ _ => 0%R) 1 s one_tap = Ok (G, w) /\
  fst (G 0 0 0) = RoundModel.nearest 53 (RoundModel.nearest 53 (RoundModel.nearest 53 (0 + RoundModel.nearest 53 (fst (s 0%nat 0%nat))) + RoundModel.nearest 53 (fst (s 1%nat 0%nat))) + RoundModel.nearest 53 (fst (s 2%nat 0%nat)))%R.
Proof.
  unfold stack_rounded. cbn [forM bind fst snd].
  destruct (one_cell (fun _ _ => c0) (s 0 0)) as (g1 & w1 & E1 & H1). rewrite E1. cbn [bind fst snd Nat.eqb].
  match goal with |- context [scatter_rounded _ _ _ _ _ ?gr (s 1 0) _] => destruct (one_cell gr (s 1 0)) as (g2 & w2 & E2 & H2) end. rewrite E2. cbn [bind fst snd Nat.eqb].
  match goal with |- context [scatter_rounded _ _ _ _ _ ?gr (s 2 0) _] => destruct (one_cell gr (s 2 0)) as (g3 & w3 & E3 & H3) end. rewrite E3. cbn [bind fst snd Nat.eqb].
  do 2 eexists. split; [reflexivity|]. cbn [Nat.eqb]. rewrite H3. cbn [fst]. rewrite H2. cbn [fst]. rewrite H1. reflexivity.
Qed.
Lemma order : exists G w G' w', stack_rounded (RoundModel.nearest 53) unpacked_index 3 1 (fun _ => 0) (fun _ _ => 0%R) (fun _ _ => 0%R) 1 three one_tap = Ok (G, w) /\
  stack_rounded (RoundModel.nearest 53) unpacked_index 3 1 (fun _ => 0) (fun _ _ => 0%R) (fun _ _ => 0%R) 1 (fun r => three (swap r)) one_tap = Ok (G', w') /\
  fst (G 0 0 0) = 0%R /\ fst (G' 0 0 0) = tiny.
Proof.
  destruct (three_cells three) as (G & w & E & H).
  destruct (three_cells (fun r => three (swap r))) as (G' & w' & E' & H').
  exists G, w, G', w'. split; [exact E|]. split; [exact E'|]. rewrite H, H'. cbn [three swap fst].
  assert (F1 : RoundModel.nearest 53 1%R = 1%R) by (apply fl_exact, fmt_1).
  assert (Fm : RoundModel.nearest 53 (-1)%R = (-1)%R).
  { destruct (double_binary) as (_ & Op & _). replace (-1)%R with (- (1))%R by lra. rewrite Op, F1. reflexivity. }
  assert (F0 : RoundModel.nearest 53 0%R = 0%R). { destruct nearest_53 as (_ & B). specialize (B 0%R). rewrite Rabs_R0, Rmult_0_r, Rminus_0_r in B. destruct (Req_dec (RoundModel.nearest 53 0) 0) as [Z|Z]; [exact Z|]. pose proof (Rabs_pos_lt _ Z). lra. }
  assert (Ft : RoundModel.nearest 53 tiny = tiny) by (apply fl_exact, fmt_tiny).
  rewrite F1, Fm, Ft, Rplus_0_l, F1. split.
  - rewrite fl_plus_tiny. replace (1 + -1)%R with 0%R by ring. exact F0.
  - replace (1 + -1)%R with 0%R by ring. rewrite F0, Rplus_0_l. exact Ft.
Qed.
