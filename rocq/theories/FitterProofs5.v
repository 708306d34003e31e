(* concrete images for the theorems about the fitter *)
From Coq Require Import Reals Lra.
From Coq Require Import String Ascii.
From Verif Require Import Prelude CRing CplxR DaskPredictModel ApplyGainsModel SpiModel SpiSpec FftFacts RestoreModel RestoreSpec RestoreProofs RestoreProofs2 RestoreProofs4 FitterModel FitterSpec FitterProofs FitterProofs2 FitterProofs3 FitterProofs4.
Open Scope list_scope.
Open Scope R_scope.

Lemma sum_nonneg n (f : nat -> R) : (forall i, (i < n)%nat -> 0 <= f i) -> 0 <= csum (K := RR) n f.
Proof. induction n as [|n IH]; intros H; [apply Rle_refl|]. cbn [csum cadd RR]. apply Rplus_le_le_0_compat; [apply IH; intros; apply H; lia|apply H; lia]. Qed.
Lemma sum_pos n (f : nat -> R) k : (forall i, (i < n)%nat -> 0 <= f i) -> (k < n)%nat -> 0 < f k -> 0 < csum (K := RR) n f.
Proof.
  induction n as [|n IH]; intros H K P; [lia|]. cbn [csum cadd RR]. destruct (Nat.eq_dec k n) as [->|N].
  - apply Rplus_le_lt_0_compat; [apply sum_nonneg; intros; apply H; lia|exact P].
  - apply Rplus_lt_le_0_compat; [apply IH; [intros; apply H; lia|lia|exact P]|apply H; lia].
Qed.
Lemma circular_pos m1 m2 c1 c2 n1 n2 x g p q : (forall i j, 0 <= x i j) -> (forall i j, 0 <= g i j) -> (p < n1)%nat -> (q < n2)%nat -> (c1 < n1)%nat -> (c2 < n2)%nat -> 0 < x p q -> 0 < g c1 c2 ->
  0 < circular m1 m2 c1 c2 n1 n2 x g p q.
Proof.
  intros X G P Q C1 C2 XP GP. assert (NN : forall i1 i2 j1 j2, 0 <= (if lands m1 c1 i1 j1 p && lands m2 c2 i2 j2 q then x i1 i2 * g j1 j2 else 0)).
  { intros. destruct (_ && _); [apply Rmult_le_pos; auto|lra]. }
  unfold circular. apply (sum_pos _ _ p); [intros; repeat (apply sum_nonneg; intros); apply NN|exact P|].
  apply (sum_pos _ _ q); [intros; repeat (apply sum_nonneg; intros); apply NN|exact Q|].
  apply (sum_pos _ _ c1); [intros; repeat (apply sum_nonneg; intros); apply NN|exact C1|].
  apply (sum_pos _ _ c2); [intros; apply NN|exact C2|]. unfold lands. rewrite !Nat.eqb_refl. cbn [andb]. now apply Rmult_lt_0_compat.
Qed.

(* n1 rows of n2 pixels, three bands, a point source at (p, q), a residual of zeros *)
Definition ex_hdr (n1 n2 : nat) : fits_hdr := {| cunit1 := "deg"; cunit2 := "DEG"; ctype3 := "STOKES"; ctype4 := "FREQ"; naxis1 := n2; naxis2 := n1; naxis3 := 1; naxis4 := 3;
  crpix1 := INR (n2 / 2) + 1; crpix2 := INR (n1 / 2) + 1; crpix3 := 1; crpix4 := INR 1 + 1; cdelt1 := 1; cdelt2 := 1; cdelt3 := 1; cdelt4 := 1; crval3 := 1; crval4 := 5 |}%string.
Definition ex_opts : options := {| o_fitsmodel := "images/sky.fits"; o_outfile := None; o_beampars := None; o_threshold := 5; o_ncpu := 1; o_threads := 8; o_output := "aiIbcC"; o_padding := 1 / 2 |}%string.
Definition ex_resid : residual := {| r_beam := Some (1, 1, 0); r_cards := fun _ => true; r_data := fun _ _ _ => 0 |}.
Definition ex_point (p q : nat) : arr2 R := fun i j => if (Nat.eqb i p && Nat.eqb j q)%bool then 1 else 0.
Definition ex_sky (p q : nat) : arr3 R := fun b i j => ex_point p q i j * Rpower (band_freq (INR 1 + 1) 1 5 b / 5) (- (7 / 10)).

Lemma ex_axis n z : Nat.even n = true -> IZR (Z.of_nat (S z)) <= / 4 * INR n < IZR (Z.of_nat (S z)) + 1 ->
  Nat.even (padded None (1 / 2) n) = true /\ centre None (1 / 2) n = (n / 2)%nat /\ (snd (axis_pad None (1 / 2) n) =? 0)%nat = false.
Proof.
  intros E N. apply npad_4 in N. rewrite Nat2Z.id in N.
  assert (P : Nat.even (padded None (1 / 2) n) = true). { unfold padded, axis_pad. cbn [fst snd]. rewrite Nat.even_add, E. replace (npad (1 / 2) n + npad (1 / 2) n)%nat with (2 * npad (1 / 2) n)%nat by lia. rewrite Nat.even_mul. reflexivity. }
  split; [exact P|]. split.
  - rewrite (centre_at None (1 / 2) n I), P. rewrite <- Nat.negb_even, E. reflexivity.
  - unfold axis_pad. cbn [snd]. rewrite N. reflexivity.
Qed.
Lemma ex_kernel n1 n2 : (1 < n1)%nat -> (2 < n2)%nat -> exists G, Gaussian2D n1 n2 (fun _ j => (INR j + 1 - (INR (n2 / 2) + 1)) * 1) (fun i _ => (INR i + 1 - (INR (n1 / 2) + 1)) * 1) 1 1 0 = Ok G /\
  (forall i j, 0 <= G i j) /\ 0 < G (n1 / 2)%nat (n2 / 2)%nat.
Proof.
  intros N1 N2. assert (D1 : (n1 / 2 < n1)%nat) by (apply Nat.div_lt; lia). assert (D2 : (n2 / 2 < n2)%nat) by (apply Nat.div_lt; lia).
  assert (D3 : (0 < n2 / 2)%nat) by (apply Nat.div_str_pos; lia).
  edestruct (gauss_ok n1 n2 (fun _ j => (INR j + 1 - (INR (n2 / 2) + 1)) * 1) (fun i _ => (INR i + 1 - (INR (n1 / 2) + 1)) * 1) 1 1 0 (n1 / 2)%nat (n2 / 2)%nat (n1 / 2)%nat (n2 / 2 - 1)%nat) as [G EG]; try lia; try lra.
  - intros E. apply (f_equal snd) in E. cbn [snd] in E. lia.
  - rewrite Rmax_left by lra. match goal with |- sqrt ?e <= _ => replace e with 0 by ring end. rewrite sqrt_0. lra.
  - rewrite Rmax_left by lra. rewrite minus_INR by lia. cbn [INR]. match goal with |- sqrt ?e <= _ => replace e with 1 by ring end. rewrite sqrt_1. lra.
  - exists G. split; [exact EG|]. unfold Gaussian2D in EG. destruct (_ || _) in EG; [discriminate|]. assert (OKI : forall a b : arr2 R, Ok a = Ok b -> a = b) by congruence. apply OKI in EG. subst G. split.
    + intros i j. destruct (in_extent _ _ _ _); [left; apply exp_pos|lra].
    + unfold in_extent. destruct (Rle_dec _ _) as [_|N]; [apply exp_pos|]. exfalso. apply N. rewrite Rmax_left by lra. replace (INR (n2 / 2) + 1 - (INR (n2 / 2) + 1)) with 0 by ring. replace (INR (n1 / 2) + 1 - (INR (n1 / 2) + 1)) with 0 by ring. lra.
Qed.
Lemma ex_ready n1 n2 : (1 < n1)%nat -> (2 < n2)%nat -> exists G, ready ex_opts ex_resid (ex_hdr n1 n2) 4 3 (INR 1 + 1) 1 5 G /\ (forall i j, 0 <= G i j) /\ 0 < G (n1 / 2)%nat (n2 / 2)%nat.
Proof.
  intros N1 N2. destruct (ex_kernel n1 n2 N1 N2) as (G & EG & G0 & GP). exists G. split; [|now split]. exists 1, 1, 0. split; [left; split; reflexivity|]. split; [now right|]. split; [now left|].
  split; [|split; [lia|exact EG]]. left. repeat split; cbn; lia.
Qed.
Lemma ex_level n1 n2 : level ex_opts ex_resid (ex_hdr n1 n2) 3 = 0.
Proof.
  unfold level, rms. cbn [r_data ex_resid]. set (a := average 0 3 _ _ _) at 2 3.
  assert (Z : forall f : arr3 R, (forall b i j, f b i j = 0) -> average 0 3 (naxis2 (ex_hdr n1 n2)) (naxis1 (ex_hdr n1 n2)) f = 0).
  { intros f H. unfold average. set (s := csum _ _). assert (E : s = 0). { apply rsum_zero. intros b _. apply rsum_zero. intros i _. apply rsum_zero. intros j _. apply H. } rewrite E. unfold Rdiv. apply Rmult_0_l. }
  assert (A : a = 0) by (apply Z; reflexivity). rewrite Z; [rewrite sqrt_0; ring|]. intros. rewrite A. ring.
Qed.
Lemma ex_bright n1 n2 p q G : Nat.even n1 = true -> Nat.even n2 = true -> (n1 = 16 \/ n1 = 24)%nat -> (n2 = 16 \/ n2 = 24)%nat -> (p < n1)%nat -> (q < n2)%nat -> (forall i j, 0 <= G i j) -> 0 < G (n1 / 2)%nat (n2 / 2)%nat ->
  bright 3 (restored_cube false None ex_opts (ex_hdr n1 n2) (ex_sky p q) G) 0 p q.
Proof.
  intros E1 E2 N1 N2 P Q G0 GP.
  assert (AX : forall n, (n = 16 \/ n = 24)%nat -> Nat.even n = true -> Nat.even (padded None (1 / 2) n) = true /\ centre None (1 / 2) n = (n / 2)%nat /\ (snd (axis_pad None (1 / 2) n) =? 0)%nat = false).
  { intros n [->| ->] E; [apply (ex_axis 16 3)|apply (ex_axis 24 5)]; try assumption; cbn; lra. }
  destruct (AX n1 N1 E1) as (A1 & B1 & C1). destruct (AX n2 N2 E2) as (A2 & B2 & C2).
  destruct (convolve_shape false None (1 / 2) n1 n2 (ex_sky p q) G) as [S1 S2]. rewrite C1 in S1. rewrite C2, A2 in S2. cbn [orb] in S2.
  unfold restored_cube. cbn [o_padding ex_opts naxis1 naxis2 ex_hdr]. split; [|split].
  - rewrite S1. exact P.
  - rewrite S2. exact Q.
  - intros b _. rewrite convolve_at by (try exact I; try lia; now right). rewrite B1, B2. assert (D1 : (n1 / 2 < n1)%nat) by (apply Nat.div_lt; lia). assert (D2 : (n2 / 2 < n2)%nat) by (apply Nat.div_lt; lia).
    apply circular_pos; try assumption.
    + intros i j. unfold ex_sky, ex_point. destruct (_ && _); [rewrite Rmult_1_l; left; apply exp_pos|lra].
    + unfold ex_sky, ex_point. rewrite !Nat.eqb_refl. cbn [andb]. rewrite Rmult_1_l. apply exp_pos.
Qed.
(* a square image is fitted; the same image with more rows is refused *)
Lemma ex_square : exists f, spi_fit false None ex_opts (Some ex_resid) (ex_hdr 16 16) (ex_sky 8 8) None = Ok f /\ In (8, 8)%nat (f_mask f).
Proof.
  destruct (ex_ready 16 16 ltac:(lia) ltac:(lia)) as (G & RD & G0 & GP).
  pose proof (ex_bright 16 16 8 8 G eq_refl eq_refl ltac:(lia) ltac:(lia) ltac:(lia) ltac:(lia) G0 GP) as B.
  destruct (outcome_main false None _ _ _ (ex_sky 8 8) _ _ _ _ _ _ RD ltac:(cbn; lia)) as (O & l & LB). destruct (O l LB) as (_ & _ & _ & OK). rewrite ex_level in *.
  destruct OK as [f F].
  - assert (I : In (8, 8)%nat l) by now apply (proj2 LB). destruct l as [|x l]; [destruct I|]. cbn. lia.
  - intros i j (I & J & _). destruct (convolve_shape false None (1 / 2) 16 16 (ex_sky 8 8) G) as [S1 S2]. destruct (ex_axis 16 3 eq_refl ltac:(cbn; lra)) as (A & _ & C). rewrite C in S1, S2. rewrite A in S2. cbn [orb] in S2.
    unfold restored_cube in I, J. cbn [o_padding ex_opts naxis1 naxis2 ex_hdr] in I, J. cbn [naxis1 naxis2 ex_hdr]. rewrite S1 in I. rewrite S2 in J. split; assumption.
  - exists f. split; [exact F|]. assert (NB : (0 < f_nband f)%nat).
    { destruct (fit_runs _ _ _ _ _ _ _ _ F) as (rd & emaj & emin & pa & ax & nband & ref & step & value & G' & conv & wt & out & _ & R). destruct R. rewrite run_nb. destruct run_bands as [(_ & _ & -> & _)|(N & _)]; [cbn; lia|exfalso; apply N; reflexivity]. }
    destruct (maps_main _ _ _ _ _ _ _ _ NB F) as (rd & ref & step & value & wt & E & RD' & _ & _ & _ & _ & M). cbv zeta in M. destruct M as [[_ M] _]. injection E as <-. apply M.
    destruct RD as (e1 & e2 & pa & BG & _ & _ & BD & _ & EG). destruct RD' as (e1' & e2' & pa' & BG' & _ & _ & BD' & _ & EG').
    destruct (bands_same _ _ _ _ _ _ _ _ _ _ _ BD BD') as (_ & <- & _).
    assert (EB : (e1, e2, pa) = (e1', e2', pa')) by (destruct BG as [[_ Q]|Q], BG' as [[_ Q']|Q']; try discriminate; rewrite Q in Q'; now injection Q' as -> -> ->).
    injection EB as <- <- <-. rewrite EG in EG'. injection EG' as EQ. rewrite <- EQ, ex_level. exact B.
Qed.
Lemma ex_tall : exists G, ready ex_opts ex_resid (ex_hdr 24 16) 4 3 (INR 1 + 1) 1 5 G /\ bright 3 (restored_cube false None ex_opts (ex_hdr 24 16) (ex_sky 20 8) G) (level ex_opts ex_resid (ex_hdr 24 16) 3) 20 8 /\
  spi_fit false None ex_opts (Some ex_resid) (ex_hdr 24 16) (ex_sky 20 8) None = Raise IndexError.
Proof.
  destruct (ex_ready 24 16 ltac:(lia) ltac:(lia)) as (G & RD & G0 & GP). exists G. split; [exact RD|].
  pose proof (ex_bright 24 16 20 8 G eq_refl eq_refl ltac:(lia) ltac:(lia) ltac:(lia) ltac:(lia) G0 GP) as B. rewrite ex_level. split; [exact B|].
  destruct (outcome_main false None _ _ _ (ex_sky 20 8) _ _ _ _ _ _ RD ltac:(cbn; lia)) as (O & l & LB). destruct (O l LB) as (_ & _ & W & _). rewrite ex_level in *.
  apply W.
  - assert (I : In (20, 8)%nat l) by now apply (proj2 LB). destruct l as [|x l]; [destruct I|]. cbn. lia.
  - exists 20%nat, 8%nat. split; [exact B|]. left. cbn. lia.
Qed.
