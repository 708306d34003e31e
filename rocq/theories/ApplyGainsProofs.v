From Coq Require Import Sorting.Sorted.
From Verif Require Import Prelude PreludeFacts CRing CField PredictModel PredictSpec PredictProofs AvgModel AvgSpec CalModel CalSpec CalProofs CalProofs2
  ApplyGainsModel ApplyGainsSpec.
Open Scope nat_scope.

Lemma sizes_length : forall n k c, 0 < k -> (c < length (chunk_sizes n k) <-> c * k < n).
Proof.
  intros n k c K. unfold chunk_sizes. rewrite map_length, seq_length. split; intros H.
  - pose proof (Nat.mul_div_le (n + k - 1) k ltac:(lia)). nia.
  - apply Nat.div_le_lower_bound; [lia|]. nia.
Qed.
Lemma sizes_nth : forall n k c, 0 < k -> nth c (chunk_sizes n k) 0 = Nat.min k (n - c * k).
Proof.
  intros n k c K. destruct (lt_dec c (length (chunk_sizes n k))) as [H|H].
  - unfold chunk_sizes in *. rewrite map_length, seq_length in H.
    set (f := fun c => Nat.min k (n - c * k)). rewrite (nth_indep _ 0 (f 0)) by (rewrite map_length, seq_length; exact H).
    rewrite (map_nth f), seq_nth by exact H. reflexivity.
  - rewrite nth_overflow by lia. rewrite sizes_length in H by exact K. lia.
Qed.
Lemma off_S : forall l c, off l (S c) = off l c + nth c l 0.
Proof.
  unfold off. induction l as [|x l IH]; intros [|c]; try reflexivity.
  - cbn. lia.
  - change (x + list_sum (firstn (S c) l) = x + list_sum (firstn c l) + nth c l 0). rewrite IH. lia.
Qed.
Lemma sizes_off : forall n k c, 0 < k -> off (chunk_sizes n k) c = Nat.min (c * k) n.
Proof.
  intros n k c K. induction c as [|c IH]; [reflexivity|]. rewrite off_S, IH, sizes_nth by exact K. cbn [Nat.mul]. lia.
Qed.
Lemma locate_spec : forall l r, r < list_sum l -> fst (locate l r) < length l /\ snd (locate l r) < nth (fst (locate l r)) l 0 /\
  off l (fst (locate l r)) + snd (locate l r) = r.
Proof.
  induction l as [|c l IH]; intros r R; [cbn in R; lia|]. cbn [locate]. destruct (Nat.ltb_spec r c) as [H|H].
  - cbn. unfold off. cbn. repeat split; lia.
  - change (r < c + list_sum l) in R. destruct (IH (r - c) ltac:(lia)) as (A & B & C). destruct (locate l (r - c)) as [b r'] eqn:E. cbn [fst snd] in *.
    cbn [length nth]. split; [lia|]. split; [exact B|]. change (off (c :: l) (S b)) with (c + off l b). lia.
Qed.
Lemma same_length {A B} : forall (l : list A) (l' : list B), (forall c, c < length l <-> c < length l') -> length l = length l'.
Proof. intros l l' H. pose proof (H (length l)). pose proof (H (length l')). lia. Qed.

Lemma sorted_unique : forall l l' : list Z, StronglySorted Z.lt l -> StronglySorted Z.lt l' -> (forall x, In x l <-> In x l') -> l = l'.
Proof.
  induction l as [|a l IH]; intros [|b l'] S S' H.
  - reflexivity.
  - destruct (proj2 (H b) (or_introl eq_refl)).
  - destruct (proj1 (H a) (or_introl eq_refl)).
  - inversion S as [|? ? S1 S2]; subst. inversion S' as [|? ? S1' S2']; subst. rewrite Forall_forall in S2, S2'.
    assert (a = b).
    { destruct (proj1 (H a) (or_introl eq_refl)) as [X|X]; [now symmetry|]. destruct (proj2 (H b) (or_introl eq_refl)) as [Y|Y]; [exact Y|].
      specialize (S2 b Y). specialize (S2' a X). lia. }
    subst b. f_equal. apply IH; [exact S1|exact S1'|]. intros x. specialize (H x). cbn in H. split; intros X.
    + destruct (proj1 H (or_intror X)) as [Y|Y]; [|exact Y]. subst x. specialize (S2 a X). lia.
    + destruct (proj2 H (or_intror X)) as [Y|Y]; [|exact Y]. subst x. specialize (S2' a X). lia.
Qed.
Lemma distinct_unique : forall nrow time us us', distinct_times nrow time us -> distinct_times nrow time us' -> us = us'.
Proof. intros nrow time us us' [A B] [C D]. apply sorted_unique; [exact A|exact C|]. intros x. now rewrite B, D. Qed.

Section Apply.
  Context {F : fops} (L : flaws F).
  Lemma gains_mode_check : forall ncorr ndim mode nrow nchan ndir (cols : nat -> nat -> nat -> nat -> F), gains_mode ncorr ndim mode ->
    check_type ndim (m_ndim (stacked nrow nchan ncorr ndir cols)) VT_model = Ok mode /\
    (Nat.ltb 2 ncorr = Nat.eqb ncorr 4) /\ mode_full mode = Nat.eqb ncorr 4.
  Proof.
    intros ncorr ndim mode nrow nchan ndir cols [(A & -> & ->)|[(-> & -> & ->)|(-> & -> & ->)]]; try (repeat split; reflexivity).
    destruct ncorr as [|[|[|]]]; try lia; repeat split; reflexivity.
  Qed.

  (* the gains the blocks see *)
  Definition seen (upc nrows : nat) (g : gain_arr F) : gain_arr F :=
    if (Nat.eqb (length (chunk_sizes (j_tim g) upc)) 1 && Nat.ltb 1 nrows)%bool then broadcast_gains upc g else g.
  Lemma seen_shape upc nrows g : j_ndim (seen upc nrows g) = j_ndim g /\ j_dir (seen upc nrows g) = j_dir g.
  Proof. unfold seen. destruct (_ && _)%bool; split; reflexivity. Qed.

  Lemma apply_general nrow time upc nant ant1 ant2 nchan ncorr ndir cols (g : gain_arr F) mode us :
    0 < nrow -> 0 < upc -> sorted_times nrow time -> distinct_times nrow time us ->
    gains_mode ncorr (j_ndim g) mode -> 0 < ndir <= 3 ->
    (forall c, c < length (chunk_sizes (j_tim g) upc) <-> c * upc < length us) \/ length (chunk_sizes (j_tim g) upc) = 1 ->
    exists out, apply_gains nrow time upc nant ant1 ant2 nchan ncorr ndir cols g = Ok out /\
      forall r f c t, r < nrow -> f < nchan -> c < ncorr -> t < length us -> nth t us 0%Z = time r ->
        out r f c = with_gains mode ncorr ndir (seen upc (length (chunk_sizes (length us) upc)) g) cols ant1 ant2 t r f c.
  Proof.
    intros HN HU HS HD HG HD3 HJ.
    destruct (chunkify_rows_main nrow time upc HU) as (rows & idx & cnts & us' & E & HD' & L1 & L2 & _ & CL & _ & SUM & BIN).
    assert (us' = us) as -> by (eapply distinct_unique; eassumption).
    destruct (chunkify_aligned nrow time upc HU rows idx cnts E) as (DIS & MIN & _ & AL). destruct (MIN HN) as [NI MN]. clear MIN.
    assert (LR : length (chunk_sizes (length us) upc) = length rows).
    { apply same_length. intros c. rewrite sizes_length by exact HU. now rewrite CL. }
    destruct (gains_mode_check ncorr (j_ndim g) mode nrow nchan ndir cols HG) as (CK & BG & FU).
    unfold apply_gains. rewrite E, LR. cbn [bind]. cbv zeta.
    assert (G1 : (Nat.ltb 2 ncorr && negb (Nat.eqb ncorr 4))%bool = false) by (rewrite BG; destruct (Nat.eqb ncorr 4); reflexivity).
    rewrite G1. fold (seen upc (length rows) g).
    set (h := seen upc (length rows) g). destruct (seen_shape upc (length rows) g) as [S1 S2]. fold h in S1, S2.
    rewrite L1. set (ch := {| cc_row := rows; cc_time := chunk_sizes (length us) upc; cc_chan := [nchan]; cc_jant := [nant]; cc_jdir := [j_dir g]; cc_mdir := chunk_sizes ndir 3 |}).
    set (tbi := fun t => Z.of_nat (nth t idx 0)) in *. set (tbc := fun t => nth t cnts 0) in *. set (m := stacked nrow nchan ncorr ndir cols) in *.
    rewrite L1 in *.
    assert (MD : hd 0 (cc_mdir ch) = m_dir m).
    { unfold ch, m. cbn [cc_mdir stacked m_dir]. destruct ndir as [|[|[|[|]]]]; try lia; reflexivity. }
    destruct (dask_corrupt (length us) tbi tbc ant1 ant2 h m mode 0%Z ch nant) as (tbi' & whole & blocks & EW & EB & H);
      [rewrite S1; exact CK|exact NI|exact MN|exact DIS|reflexivity|cbn; now rewrite S2|exact MD|cbn; lia|].
    rewrite EB. cbn [bind].
    assert (G2 : negb (Nat.eqb (length (chunk_sizes (j_tim g) upc)) (length rows) || Nat.eqb (length (chunk_sizes (j_tim g) upc)) 1)%bool = false).
    { destruct HJ as [HJ|HJ].
      - rewrite (same_length (chunk_sizes (j_tim g) upc) rows) by (intros c; rewrite HJ; now rewrite CL). now rewrite Nat.eqb_refl.
      - rewrite HJ. cbn. now rewrite orb_true_r. }
    rewrite G2.
    assert (AC : forall rb, rb < length rows -> chunk_aligned (length us) tbi 0%Z tbc ch rb).
    { intros rb RB. unfold chunk_aligned. cbn [ch cc_time cc_row]. rewrite sizes_off, sizes_nth by exact HU.
      rewrite Nat.min_l by (apply CL in RB; lia). exact (AL rb RB). }
    assert (G3 : existsb (fun rb => is_raise (blocks rb 0)) (seq 0 (length rows)) = false).
    { destruct (existsb _ _) eqn:X; [|reflexivity]. apply existsb_exists in X. destruct X as (rb & RB & X). apply in_seq in RB.
      destruct (H rb (AC rb ltac:(lia)) 0) as (a & b & Q & _). rewrite Q in X. discriminate. }
    rewrite G3. eexists. split; [reflexivity|]. intros r f c t R FC CC T ET. cbn beta.
    destruct (locate_spec rows r ltac:(lia)) as (P1 & P2 & P3). destruct (locate rows r) as [rb r'] eqn:EL. cbn [fst snd] in P1, P2, P3.
    destruct (H rb (AC rb P1) 0) as (bt & b & Q & _ & _ & _ & _ & V). rewrite Q. cbn [ch cc_row cc_chan nth] in V. specialize (V r' f P2 FC).
    cbn [ch cc_row] in *. change (off [nchan] 0) with 0 in V. rewrite P3 in V. cbn [Nat.add] in V.
    destruct (corrupt_vis_spec L (length us) tbi tbc ant1 ant2 h m mode 0%Z) as (t1 & v1 & E1 & _ & _ & _ & _ & _ & W);
      [rewrite S1; exact CK|exact NI|exact MN|exact DIS|].
    rewrite EW in E1. assert (whole = v1) as <- by (injection E1; auto). clear E1.
    destruct (W r f FC) as [W1 _]. 
    assert (IB : in_bin tbi 0 tbc t r).
    { pose proof (proj2 (BIN HS t r T R) (eq_sym ET)) as X. unfold in_bin, tbi, tbc. lia. }
    specialize (W1 t T IB). pose proof (jeq_trans _ _ _ _ _ V W1) as Z. clear V W1.
    unfold with_gains, corr_of. rewrite BG. unfold jeq in Z. rewrite FU in Z. unfold corrupted in Z.
    destruct (Nat.eqb_spec ncorr 4) as [->|NE].
    - assert (C4 : c / 2 < 2 /\ c mod 2 < 2).
      { split; [apply Nat.div_lt_upper_bound; lia|apply Nat.mod_upper_bound; lia]. }
      rewrite (Z (c / 2) (c mod 2) C4). reflexivity.
    - assert (NC : ncorr <= 2) by (destruct HG as [(X & _)|[(X & _)|(X & _)]]; [exact X|contradiction|contradiction]).
      assert (MC : m_corr m = ncorr) by (destruct ncorr as [|[|[|]]]; try lia; reflexivity).
      rewrite (Z c 0) by (rewrite MC; split; [exact CC|reflexivity]).
      unfold m, stacked, as_jones. destruct ncorr as [|[|[|]]]; try lia; reflexivity.
  Qed.

  Lemma apply_main nrow time upc nant ant1 ant2 nchan ncorr ndir cols (g : gain_arr F) mode us :
    0 < nrow -> 0 < upc -> sorted_times nrow time -> distinct_times nrow time us ->
    gains_mode ncorr (j_ndim g) mode -> 0 < ndir <= 3 -> j_tim g = length us ->
    exists out, apply_gains nrow time upc nant ant1 ant2 nchan ncorr ndir cols g = Ok out /\
      forall r f c t, r < nrow -> f < nchan -> c < ncorr -> t < length us -> nth t us 0%Z = time r ->
        out r f c = with_gains mode ncorr ndir g cols ant1 ant2 t r f c.
  Proof.
    intros HN HU HS HD HG HD3 HJ.
    destruct (apply_general nrow time upc nant ant1 ant2 nchan ncorr ndir cols g mode us HN HU HS HD HG HD3) as (out & E & H).
    { left. intros c. rewrite HJ. now apply sizes_length. }
    exists out. split; [exact E|]. intros r f c t R FC CC T ET. rewrite (H r f c t R FC CC T ET).
    assert (SG : seen upc (length (chunk_sizes (length us) upc)) g = g).
    { unfold seen. rewrite HJ. destruct (Nat.eqb_spec (length (chunk_sizes (length us) upc)) 1) as [Q|Q]; [rewrite Q|]; reflexivity. }
    now rewrite SG.
  Qed.
  Lemma apply_constant nrow time nant ant1 ant2 nchan ncorr ndir cols (g : gain_arr F) mode us :
    0 < nrow -> sorted_times nrow time -> distinct_times nrow time us ->
    gains_mode ncorr (j_ndim g) mode -> 0 < ndir <= 3 -> j_tim g = 1 ->
    exists out, apply_gains nrow time 1 nant ant1 ant2 nchan ncorr ndir cols g = Ok out /\
      forall r f c, r < nrow -> f < nchan -> c < ncorr -> out r f c = with_gains mode ncorr ndir g cols ant1 ant2 0 r f c.
  Proof.
    intros HN HS HD HG HD3 HJ.
    destruct (apply_general nrow time 1 nant ant1 ant2 nchan ncorr ndir cols g mode us HN ltac:(lia) HS HD HG HD3) as (out & E & H).
    { right. rewrite HJ. reflexivity. }
    exists out. split; [exact E|]. intros r f c R FC CC.
    destruct (In_nth us (time r) 0%Z (proj2 (proj2 HD (time r)) (ex_intro _ r (conj R eq_refl)))) as (t & T & ET).
    rewrite (H r f c t R FC CC T ET). unfold seen. rewrite HJ. change (length (chunk_sizes 1 1)) with 1. cbn [Nat.eqb andb].
    destruct (Nat.ltb_spec 1 (length (chunk_sizes (length us) 1))) as [Q|Q].
    - unfold with_gains. cbn [broadcast_gains j_at]. now rewrite Nat.mod_1_r.
    - assert (t = 0) as ->; [|reflexivity]. assert (X : ~ 1 < length (chunk_sizes (length us) 1)) by lia. rewrite sizes_length in X by lia. lia.
  Qed.
  Lemma apply_zero nrow time nant ant1 ant2 nchan ncorr ndir cols (g : gain_arr F) :
    apply_gains nrow time 0 nant ant1 ant2 nchan ncorr ndir cols g = Raise ValueError.
  Proof. unfold apply_gains. now rewrite chunkify_zero. Qed.
  Lemma apply_corr nrow time upc nant ant1 ant2 nchan ncorr ndir cols (g : gain_arr F) :
    ncorr = 3 \/ 4 < ncorr -> apply_gains nrow time upc nant ant1 ant2 nchan ncorr ndir cols g = Raise ValueError.
  Proof.
    intros H. unfold apply_gains. destruct (Nat.eq_dec upc 0) as [->|U]; [now rewrite chunkify_zero|].
    destruct (chunkify_rows_main nrow time upc ltac:(lia)) as (rows & idx & cnts & us & E & _). rewrite E. cbn [bind]. cbv zeta.
    destruct (Nat.ltb_spec 2 ncorr); [|lia]. destruct (Nat.eqb_spec ncorr 4); [lia|]. reflexivity.
  Qed.
  Lemma apply_dims nrow time upc nant ant1 ant2 nchan ncorr ndir cols (g : gain_arr F) :
    0 < upc -> ncorr <= 2 \/ ncorr = 4 -> ~ (exists mode, gains_mode ncorr (j_ndim g) mode) ->
    apply_gains nrow time upc nant ant1 ant2 nchan ncorr ndir cols g = Raise RuntimeError.
  Proof.
    intros U C H. unfold apply_gains.
    destruct (chunkify_rows_main nrow time upc U) as (rows & idx & cnts & us & E & _). rewrite E. cbn [bind]. cbv zeta.
    assert (G1 : (Nat.ltb 2 ncorr && negb (Nat.eqb ncorr 4))%bool = false) by (destruct C as [C| ->]; [destruct (Nat.ltb_spec 2 ncorr); [lia|reflexivity]|reflexivity]).
    rewrite G1. fold (seen upc (length rows) g). destruct (seen_shape upc (length rows) g) as [S1 S2]. unfold dask_corrupt_vis. rewrite S1.
    assert (CK : check_type (j_ndim g) (m_ndim (stacked nrow nchan ncorr ndir cols)) VT_model = Raise RuntimeError).
    { unfold check_type, stacked. cbn [bind m_ndim]. destruct C as [C| ->].
      - destruct (Nat.ltb_spec 2 ncorr); [lia|]. cbn [Nat.eqb]. destruct (Nat.eqb_spec (j_ndim g) 5) as [J|J]; [|reflexivity].
        destruct H. exists DIAG_DIAG. left. auto.
      - cbn [Nat.ltb Nat.leb Nat.eqb]. destruct (Nat.eqb_spec (j_ndim g) 5) as [J|J]; [destruct H; exists DIAG; right; left; auto|].
        destruct (Nat.eqb_spec (j_ndim g) 6) as [J'|J']; [destruct H; exists FULL; right; right; auto|reflexivity]. }
    now rewrite CK.
  Qed.
  Lemma apply_many nrow time upc nant ant1 ant2 nchan ncorr ndir cols (g : gain_arr F) mode :
    gains_mode ncorr (j_ndim g) mode -> 3 < ndir -> apply_gains nrow time upc nant ant1 ant2 nchan ncorr ndir cols g = Raise ValueError.
  Proof.
    intros HG D. unfold apply_gains. destruct (Nat.eq_dec upc 0) as [->|U]; [now rewrite chunkify_zero|].
    destruct (chunkify_rows_main nrow time upc ltac:(lia)) as (rows & idx & cnts & us & E & _). rewrite E. cbn [bind]. cbv zeta.
    destruct (gains_mode_check ncorr (j_ndim g) mode nrow nchan ndir cols HG) as (CK & BG & _).
    destruct (_ && negb _)%bool; [reflexivity|]. fold (seen upc (length rows) g). destruct (seen_shape upc (length rows) g) as [S1 S2].
    unfold dask_corrupt_vis. rewrite S1, CK. cbn [bind cc_jant cc_jdir cc_mdir]. unfold chunked_axis.
    assert (Q : hd 0 (chunk_sizes ndir 3) = 3).
    { assert (X : hd 0 (chunk_sizes ndir 3) = nth 0 (chunk_sizes ndir 3) 0) by (destruct (chunk_sizes ndir 3); reflexivity). rewrite X, sizes_nth by lia. lia. }
    rewrite Q. cbn [hd stacked m_dir]. rewrite Nat.eqb_refl, S2, Nat.eqb_refl. cbn [negb]. destruct (Nat.eqb_spec 3 ndir); [lia|reflexivity].
  Qed.
  Lemma apply_blocks nrow time upc nant ant1 ant2 nchan ncorr ndir cols (g : gain_arr F) mode us :
    0 < upc -> distinct_times nrow time us -> gains_mode ncorr (j_ndim g) mode ->
    (exists c, ~ (c * upc < j_tim g <-> c * upc < length us)) -> j_tim g = 0 \/ upc < j_tim g ->
    apply_gains nrow time upc nant ant1 ant2 nchan ncorr ndir cols g = Raise ValueError.
  Proof.
    intros HU HD HG (c & C) HJ. unfold apply_gains.
    destruct (chunkify_rows_main nrow time upc HU) as (rows & idx & cnts & us' & E & HD' & _ & _ & _ & CL & _). rewrite E. cbn [bind]. cbv zeta.
    assert (us' = us) as -> by (eapply distinct_unique; eassumption).
    destruct (gains_mode_check ncorr (j_ndim g) mode nrow nchan ndir cols HG) as (CK & BG & _).
    destruct (_ && negb _)%bool; [reflexivity|]. fold (seen upc (length rows) g). destruct (seen_shape upc (length rows) g) as [S1 S2].
    unfold dask_corrupt_vis. rewrite S1, CK. cbn [bind]. repeat (destruct (chunked_axis _ _); [reflexivity|]). cbn [bind].
    assert (Q1 : length (chunk_sizes (j_tim g) upc) <> length rows).
    { intros X. apply C. rewrite <- CL, <- X. now rewrite sizes_length. }
    assert (Q2 : length (chunk_sizes (j_tim g) upc) <> 1).
    { pose proof (sizes_length (j_tim g) upc 0 HU). pose proof (sizes_length (j_tim g) upc 1 HU). destruct HJ; lia. }
    destruct (Nat.eqb_spec (length (chunk_sizes (j_tim g) upc)) (length rows)); [contradiction|].
    destruct (Nat.eqb_spec (length (chunk_sizes (j_tim g) upc)) 1); [contradiction|]. reflexivity.
  Qed.
  Lemma apply_chunks_irrelevant nrow time upc upc' nant ant1 ant2 nchan ncorr ndir cols (g : gain_arr F) mode us :
    0 < nrow -> 0 < upc -> 0 < upc' -> sorted_times nrow time -> distinct_times nrow time us ->
    gains_mode ncorr (j_ndim g) mode -> 0 < ndir <= 3 -> j_tim g = length us ->
    exists out out', apply_gains nrow time upc nant ant1 ant2 nchan ncorr ndir cols g = Ok out /\
      apply_gains nrow time upc' nant ant1 ant2 nchan ncorr ndir cols g = Ok out' /\
      forall r f c, r < nrow -> f < nchan -> c < ncorr -> out r f c = out' r f c.
  Proof.
    intros HN HU HU' HS HD HG HD3 HJ.
    destruct (apply_main nrow time upc nant ant1 ant2 nchan ncorr ndir cols g mode us HN HU HS HD HG HD3 HJ) as (out & E & H).
    destruct (apply_main nrow time upc' nant ant1 ant2 nchan ncorr ndir cols g mode us HN HU' HS HD HG HD3 HJ) as (out' & E' & H').
    exists out, out'. split; [exact E|]. split; [exact E'|]. intros r f c R FC CC.
    destruct (In_nth us (time r) 0%Z (proj2 (proj2 HD (time r)) (ex_intro _ r (conj R eq_refl)))) as (t & T & ET).
    now rewrite (H r f c t R FC CC T ET), (H' r f c t R FC CC T ET).
  Qed.
End Apply.
