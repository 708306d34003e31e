From Coq Require Import Reals Lra String.
From Verif Require Import Prelude PreludeFacts LoopFacts CRing CplxR RimeModel RimeSpec RimeProofs DftModel DftProofs SrcModel SrcSpec SrcProofs SrcProofs2
  CohModel CohSpec DaskRimeModel DaskRimeSpec.
Open Scope R_scope.

Ltac loc src i H s0 ns E := destruct (locate 0 src i) as [s0 ns] eqn:E; apply locate_total in E; [|exact H].
Ltac sub_back := repeat match goal with |- context [(?a + (?b - ?a))%nat] => replace (a + (b - a))%nat with b by lia end.

Lemma locate_range chunks i s n : (i < list_sum chunks)%nat -> locate 0 chunks i = (s, n) -> (s + n <= list_sum chunks)%nat.
Proof.
  assert (G : forall start, (i < start + list_sum chunks)%nat -> locate start chunks i = (s, n) -> (s + n <= start + list_sum chunks)%nat).
  { induction chunks as [|k rest IH]; cbn [locate]; intros start H E; [cbn in H; injection E as <- <-; cbn; lia|].
    change (list_sum (k :: rest)) with (k + list_sum rest)%nat in *. destruct (Nat.ltb_spec i (start + k)).
    - injection E as <- <-. lia.
    - specialize (IH (start + k)%nat ltac:(lia) E). lia. }
  exact (G O).
Qed.
Lemma unpack_ok n k : unpack n n k = Ok tt.
Proof. unfold unpack. rewrite Nat.eqb_refl, Bool.orb_true_r. reflexivity. Qed.
Lemma unpack_bad n m k : n <> m -> (0 < k)%nat -> unpack n m k = Raise ValueError.
Proof. intros H K. unfold unpack. destruct (Nat.eqb_spec k 0); [lia|]. destruct (Nat.eqb_spec n m); [contradiction|reflexivity]. Qed.
Lemma first_one {A} n (b : nat -> A) : first (listed [n] b) = Ok (n, b O).
Proof. reflexivity. Qed.
Lemma first_cons {A} n l (b : nat -> A) : first (listed (n :: l) b) = Ok (n, b O).
Proof. reflexivity. Qed.

(* ---------- phase delay ---------- *)
Theorem dask_phase_eq src rows chans lm uvw freq conv s r f :
  (s < list_sum src)%nat -> (r < list_sum rows)%nat -> (f < list_sum chans)%nat ->
  dask_phase_delay src rows chans [2%nat] [3%nat] lm uvw freq conv s r f =
  do! k <- phase_delay (list_sum src) (list_sum rows) (list_sum chans) lm uvw freq conv; Ok (k s r f).
Proof.
  intros Hs Hr Hf. unfold dask_phase_delay. loc src s Hs s0 ns Es. loc rows r Hr r0 nr Er. loc chans f Hf k0 nf Ef.
  rewrite !first_one. cbn [bind]. unfold phase_delay. destruct (phase_constant conv) as [c|e]; [|reflexivity].
  cbn [bind]. rewrite !unpack_ok. cbn [bind]. f_equal.
  etransitivity; [apply (phase_loop ns nr nf (fun i j => lm (s0 + i)%nat (0 + j)%nat) (fun i j => uvw (r0 + i)%nat (0 + j)%nat) (fun k => freq (k0 + k)%nat) c); lia|].
  rewrite phase_loop by lia. sub_back. reflexivity.
Qed.
Theorem dask_phase_comp src rows chans lmc uvwc lm uvw freq conv s r f :
  (s < list_sum src)%nat -> (r < list_sum rows)%nat -> (f < list_sum chans)%nat ->
  lmc <> [] -> uvwc <> [] -> hd O lmc <> 2%nat \/ hd O uvwc <> 3%nat ->
  dask_phase_delay src rows chans lmc uvwc lm uvw freq conv s r f = Raise ValueError.
Proof.
  intros Hs Hr Hf HL HU H. unfold dask_phase_delay. loc src s Hs s0 ns Es. loc rows r Hr r0 nr Er. loc chans f Hf k0 nf Ef.
  destruct lmc as [|n lmc]; [contradiction|]. destruct uvwc as [|k uvwc]; [contradiction|]. rewrite !first_cons. cbn [bind hd] in *.
  unfold phase_delay, phase_constant. destruct (String.eqb conv "fourier"), (String.eqb conv "casa"); cbn [bind]; try reflexivity;
  (destruct (Nat.eq_dec n 2) as [->|N]; [rewrite unpack_ok; cbn [bind]; rewrite unpack_bad by nia; reflexivity|rewrite unpack_bad by lia; reflexivity]).
Qed.

(* ---------- gaussian ---------- *)
Theorem dask_gaussian_eq src rows chans uvw freq sp g g' s r f :
  (s < list_sum src)%nat -> (r < list_sum rows)%nat -> (f < list_sum chans)%nat ->
  dask_gaussian src rows chans [3%nat] [3%nat] uvw freq sp g s r f =
  Ok (gaussian (list_sum src) (list_sum rows) (list_sum chans) uvw freq sp g' s r f).
Proof.
  intros Hs Hr Hf. unfold dask_gaussian. loc src s Hs s0 ns Es. loc rows r Hr r0 nr Er. loc chans f Hf k0 nf Ef.
  rewrite !first_one. cbn [bind]. rewrite !unpack_ok. cbn [bind]. rewrite !gaussian_value by lia. sub_back. reflexivity.
Qed.
Theorem dask_gaussian_comp src rows chans uvwc spc uvw freq sp g s r f :
  (s < list_sum src)%nat -> (r < list_sum rows)%nat -> (f < list_sum chans)%nat ->
  uvwc <> [] -> spc <> [] -> hd O uvwc <> 3%nat \/ hd O spc <> 3%nat ->
  dask_gaussian src rows chans uvwc spc uvw freq sp g s r f = Raise ValueError.
Proof.
  intros Hs Hr Hf HL HU H. unfold dask_gaussian. loc src s Hs s0 ns Es. loc rows r Hr r0 nr Er. loc chans f Hf k0 nf Ef.
  destruct uvwc as [|n uvwc]; [contradiction|]. destruct spc as [|k spc]; [contradiction|]. rewrite !first_cons. cbn [bind hd] in *.
  destruct (Nat.eq_dec k 3) as [->|N]; [rewrite unpack_ok; cbn [bind]; rewrite unpack_bad by nia; reflexivity|rewrite unpack_bad by lia; reflexivity].
Qed.

(* ---------- transform ---------- *)
Theorem dask_transform_eq src times ants chans lm pangles perr scaling freq g g' i s t a c :
  (i < 3)%nat -> (s < list_sum src)%nat -> (t < list_sum times)%nat -> (a < list_sum ants)%nat -> (c < list_sum chans)%nat ->
  dask_transform_sources src times ants chans [2%nat] lm pangles perr scaling freq g i s t a c =
  do! o <- transform_sources (list_sum src) (list_sum times) (list_sum times) (list_sum ants) (list_sum chans) (list_sum chans) (list_sum ants)
             lm pangles perr scaling freq g'; Ok (o i s t a c).
Proof.
  intros Hi Hs Ht Ha Hc. unfold dask_transform_sources. loc src s Hs s0 ns Es. loc times t Ht t0 nt Et. loc ants a Ha a0 na Ea. loc chans c Hc k0 nf Ef.
  rewrite !first_one. cbn [bind]. unfold transform_sources. rewrite !Nat.eqb_refl. cbn [negb andb bind]. rewrite unpack_ok. cbn [bind].
  rewrite !nb_transform_value by lia. cbv zeta. sub_back. reflexivity.
Qed.
Theorem dask_transform_comp src times ants chans lmc lm pangles perr scaling freq g i s t a c :
  (s < list_sum src)%nat -> (t < list_sum times)%nat -> (a < list_sum ants)%nat -> (c < list_sum chans)%nat ->
  lmc <> [] -> hd O lmc <> 2%nat ->
  dask_transform_sources src times ants chans lmc lm pangles perr scaling freq g i s t a c = Raise ValueError.
Proof.
  intros Hs Ht Ha Hc HL H. unfold dask_transform_sources. loc src s Hs s0 ns Es. loc times t Ht t0 nt Et. loc ants a Ha a0 na Ea. loc chans c Hc k0 nf Ef.
  destruct lmc as [|n lmc]; [contradiction|]. rewrite !first_cons. cbn [bind hd] in *.
  unfold transform_sources. rewrite !Nat.eqb_refl. cbn [negb andb bind]. rewrite unpack_bad; auto.
  assert (0 < nt * na)%nat by nia. nia.
Qed.

(* ---------- parallactic angles ---------- *)
Section Casa.
  Context (posangle : option R -> option (list R) -> R * R -> R).
  Lemma casa_row_value ps fc : forall sv,
    fst (casa_row posangle ps fc sv) = map (fun p => posangle (epoch sv) (Some p) fc) ps /\ epoch (snd (casa_row posangle ps fc sv)) = epoch sv.
  Proof.
    induction ps as [|p ps IH]; intros sv; [auto|]. cbn [casa_row map]. specialize (IH {| epoch := epoch sv; place := Some p |}).
    destruct (casa_row posangle ps fc _) as [row sv']. cbn [fst snd epoch place] in *. destruct IH as (-> & ->). auto.
  Qed.
  Lemma casa_rows_value ts ps fc : forall sv,
    fst (casa_rows posangle ts ps fc sv) = map (fun t => map (fun p => posangle (Some t) (Some p) fc) ps) ts.
  Proof.
    induction ts as [|t ts IH]; intros sv; [auto|]. cbn [casa_rows map].
    destruct (casa_row_value ps fc {| epoch := Some t; place := place sv |}) as (E & _).
    destruct (casa_row posangle ps fc _) as [row sv']. specialize (IH sv').
    destruct (casa_rows posangle ts ps fc sv') as [rows sv'']. cbn [fst epoch] in *. now rewrite E, IH.
  Qed.
  Theorem casa_value ntime times nant ncomp positions fc sv :
    fst (casa_parallactic_angles posangle ntime times nant ncomp positions fc sv) =
    map (fun t => map (fun a => posangle (Some (times t)) (Some (map (positions a) (seq 0 ncomp))) (fc 0%nat, fc 1%nat)) (seq 0 nant)) (seq 0 ntime).
  Proof. unfold casa_parallactic_angles. rewrite casa_rows_value, map_map. apply map_ext. intros t. now rewrite map_map. Qed.
  Lemma nth_map_seq {A} n (f : nat -> A) i d : (i < n)%nat -> nth i (map f (seq 0 n)) d = f i.
  Proof. intros H. rewrite (nth_indep _ d (f O)) by (rewrite map_length, seq_length; auto). rewrite map_nth, seq_nth; auto. Qed.

  Context (astropy : nat -> arr R -> nat -> nat -> arr2 R -> arr R -> res (arr2 R)) (alone : R -> list R -> R * R -> R).
  Theorem dask_parangles_eq timec ants ncomp xyz nfc fcc times positions fc backend sv sv' t a : per_element astropy alone ->
    (t < list_sum timec)%nat -> (a < list_sum ants)%nat ->
    dask_parallactic_angles posangle astropy timec ants (ncomp :: xyz) (nfc :: fcc) times positions fc backend sv t a =
    do! o <- np_parallactic_angles posangle astropy (list_sum timec) times (list_sum ants) ncomp positions nfc fc backend sv'; Ok (o t a).
  Proof.
    intros HA Ht Ha. unfold dask_parallactic_angles. loc timec t Ht t0 nt Et. loc ants a Ha a0 na Ea. rewrite !first_cons. cbn [bind].
    unfold np_parallactic_angles. destruct (negb _); [reflexivity|]. destruct (negb _); [reflexivity|].
    destruct (String.eqb backend "astropy").
    - destruct (HA nt (fun i => times (t0 + i)%nat) na ncomp (fun i j => positions (a0 + i)%nat (0 + j)%nat) (fun i => fc (0 + i)%nat)) as (o & -> & V).
      destruct (HA (list_sum timec) times (list_sum ants) ncomp positions fc) as (o' & -> & V'). cbn [bind].
      rewrite V, V' by lia. sub_back. reflexivity.
    - destruct (String.eqb backend "casa"); cbn [bind].
      + rewrite !casa_value. rewrite !nth_map_seq by lia. sub_back. reflexivity.
      + unfold pos_row. sub_back. reflexivity.
  Qed.
  Theorem dask_parangles_fc timec ants xyz fcc times positions fc backend sv t a :
    (t < list_sum timec)%nat -> (a < list_sum ants)%nat -> xyz <> [] -> fcc <> [] -> hd O fcc <> 2%nat ->
    dask_parallactic_angles posangle astropy timec ants xyz fcc times positions fc backend sv t a = Raise ValueError.
  Proof.
    intros Ht Ha HX HF H. unfold dask_parallactic_angles. loc timec t Ht t0 nt Et. loc ants a Ha a0 na Ea.
    destruct xyz as [|n xyz]; [contradiction|]. destruct fcc as [|k fcc]; [contradiction|]. rewrite !first_cons. cbn [bind hd] in *.
    unfold np_parallactic_angles. destruct (negb _); [reflexivity|]. destruct (Nat.eqb_spec k 2); [contradiction|]. reflexivity.
  Qed.
End Casa.

(* ---------- feed rotation ---------- *)
Lemma inside_prod idx shape : inside idx shape -> (0 < prodn shape)%nat.
Proof. intros H. induction H as [|i n idx shape Hi H IH]; cbn; [lia|]. nia. Qed.
Lemma ravel_lt idx shape : inside idx shape -> (ravel shape idx < prodn shape)%nat.
Proof. intros H. induction H as [|i n idx shape Hi H IH]; cbn [ravel prodn]; [lia|]. nia. Qed.
Lemma unravel_ravel idx shape : inside idx shape -> unravel shape (ravel shape idx) = idx.
Proof.
  intros H. induction H as [|i n idx shape Hi H IH]; cbn [ravel unravel]; [reflexivity|].
  assert (L := ravel_lt _ _ H). assert (P := inside_prod _ _ H).
  rewrite Nat.div_add_l, Nat.div_small, Nat.add_0_r by lia. f_equal.
  rewrite Nat.add_comm, Nat.mod_add, Nat.mod_small by lia. exact IH.
Qed.
Lemma nd_feed_value shape pa ft g idx i j : shape <> [] -> inside idx shape -> (i < 2)%nat -> (j < 2)%nat ->
  (do! o <- nd_feed_rotation shape pa true ft g; Ok (o idx i j)) =
  match feed_matrix ft (pa idx) i j with Some v => Ok v | None => Raise ValueError end.
Proof.
  intros HS HI Hi Hj. unfold nd_feed_rotation. destruct shape as [|n shape]; [contradiction|]. cbn [negb].
  set (sh := n :: shape) in *. assert (L := ravel_lt _ _ HI). unfold feed_matrix.
  destruct (String.eqb_spec ft "linear") as [->|N1].
  - cbn [bind]. destruct (feed_linear (prodn sh) (fun i => pa (unravel sh i)) g) as (o & -> & V). cbn [bind].
    destruct (V _ L) as (V1 & V2 & V3 & V4). rewrite unravel_ravel in * by auto.
    destruct i as [|[|i]], j as [|[|j]]; try lia; congruence.
  - destruct (String.eqb_spec ft "circular") as [->|N2]; [|reflexivity].
    cbn [bind]. destruct (feed_circular (prodn sh) (fun i => pa (unravel sh i)) g) as (o & -> & V). cbn [bind].
    destruct (V _ L) as (V1 & V2 & V3 & V4). rewrite unravel_ravel in * by auto.
    unfold cis. rewrite cos_neg, sin_antisym.
    destruct i as [|[|i]], j as [|[|j]]; try lia; congruence.
Qed.
Lemma located chunks : forall idx, inside idx (map list_sum chunks) ->
  let blk := locate_all chunks idx in
  inside (local (map fst blk) idx) (map snd blk) /\ shift (map fst blk) (local (map fst blk) idx) = idx /\
  List.length blk = List.length chunks.
Proof.
  induction chunks as [|c chunks IH]; intros idx H; inversion H as [|i n idx' sh' Hi H' E1 E2]; subst; cbn.
  - repeat split. constructor.
  - destruct (locate 0 c i) as [c0 nc] eqn:E. apply locate_total in E; auto.
    destruct (IH idx' H') as (A & B & C). unfold locate_all, local, shift in *. cbn. repeat split.
    + constructor; [lia|exact A].
    + f_equal; [lia|exact B].
    + f_equal. exact C.
Qed.
Theorem dask_feed_eq chunks pa fl ft g g' idx i j : inside idx (map list_sum chunks) -> (i < 2)%nat -> (j < 2)%nat ->
  dask_feed_rotation chunks pa fl ft g idx i j =
  if negb fl then Raise ValueError else do! o <- nd_feed_rotation (map list_sum chunks) pa fl ft g'; Ok (o idx i j).
Proof.
  intros HI Hi Hj. unfold dask_feed_rotation. destruct fl; cbn [negb]; [|reflexivity].
  destruct (located _ _ HI) as (A & B & C).
  destruct chunks as [|c chunks].
  - cbn. unfold nd_feed_rotation. destruct (String.eqb ft "linear"); [reflexivity|]. destruct (String.eqb ft "circular"); reflexivity.
  - rewrite !nd_feed_value; auto; try discriminate.
    + rewrite B. reflexivity.
    + intros E. apply (f_equal (@List.length nat)) in E. rewrite map_length, C in E. discriminate.
Qed.

(* ---------- wsclean spectra ---------- *)
Lemma log_block_at lp s0 ns i : log_polynomial (log_block lp s0 ns) i = log_polynomial lp (s0 + i)%nat.
Proof. destruct lp; reflexivity. Qed.
Lemma log_block_fits lp s0 ns : lp_fits ns (log_block lp s0 ns).
Proof. destruct lp; cbn; auto. Qed.
Theorem dask_spectra_eq src chans nk more I coeffs lp rf freq g g' whole :
  lp_fits (list_sum src) lp ->
  spectra (list_sum src) (list_sum src) (list_sum src) (list_sum chans) nk I coeffs lp rf freq g' = Ok whole ->
  forall s f, (s < list_sum src)%nat -> (f < list_sum chans)%nat ->
  dask_spectra src chans (nk :: more) I coeffs lp rf freq g s f = Ok (whole s f).
Proof.
  intros HL HW s f Hs Hf. unfold dask_spectra.
  assert (HA : forall s, (s < list_sum src)%nat -> accepted nk (log_polynomial lp s) (I s) (coeffs s)).
  { intros s' Hs'. destruct (Classical_Prop.classic (accepted nk (log_polynomial lp s') (I s') (coeffs s'))) as [H|H]; auto.
    rewrite (spectra_raises _ _ _ _ _ _ _ _ _ s') in HW; auto; [discriminate|lia]. }
  destruct (spectra_value (list_sum src) (list_sum chans) nk I coeffs lp rf freq g' HL HA) as (o & E & V).
  rewrite E in HW. injection HW as <-.
  destruct (locate 0 src s) as [s0 ns] eqn:Es. assert (Rg := Es). apply locate_range in Rg; auto. apply locate_total in Es; auto.
  loc chans f Hf k0 nf Ef. rewrite first_cons. cbn [bind].
  destruct (spectra_value ns nf nk (fun i => I (s0 + i)%nat) (fun i j => coeffs (s0 + i)%nat (0 + j)%nat) (log_block lp s0 ns)
    (fun i => rf (s0 + i)%nat) (fun i => freq (k0 + i)%nat) g (log_block_fits _ _ _)) as (o' & -> & V').
  { intros i Hi. rewrite log_block_at. apply HA. lia. }
  cbn [bind]. rewrite V', V by lia. rewrite log_block_at. sub_back. reflexivity.
Qed.
Theorem dask_spectra_raises src chans nk more I coeffs lp rf freq g g' e :
  lp_fits (list_sum src) lp -> (0 < list_sum chans)%nat ->
  spectra (list_sum src) (list_sum src) (list_sum src) (list_sum chans) nk I coeffs lp rf freq g' = Raise e ->
  exists s, (s < list_sum src)%nat /\ forall f, (f < list_sum chans)%nat ->
    dask_spectra src chans (nk :: more) I coeffs lp rf freq g s f = Raise e.
Proof.
  intros HL HC HW.
  destruct (Classical_Prop.classic (forall s, (s < list_sum src)%nat -> accepted nk (log_polynomial lp s) (I s) (coeffs s))) as [HA|HA].
  { rewrite spectra_pure in HW; auto. discriminate. }
  apply Classical_Pred_Type.not_all_ex_not in HA. destruct HA as (s & HA). apply Classical_Prop.imply_to_and in HA. destruct HA as (Hs & HA).
  rewrite (spectra_raises _ _ _ _ _ _ _ _ _ s) in HW; auto. injection HW as <-.
  exists s. split; auto. intros f Hf. unfold dask_spectra. loc src s Hs s0 ns Es. loc chans f Hf k0 nf Ef. rewrite first_cons. cbn [bind].
  rewrite (spectra_raises _ _ _ _ _ _ _ _ _ (s - s0)%nat); [reflexivity|apply log_block_fits|lia|lia|].
  rewrite log_block_at. sub_back. exact HA.
Qed.

(* ---------- witnesses of dropped chunks ---------- *)
Theorem spi_dropped : exists I coeffs rf freq g,
  (exists whole, spectra 1 1 1 1 2 I coeffs (LScalar false) rf freq g = Ok whole /\ whole O O = 3) /\
  dask_spectra [1%nat] [1%nat] [1%nat; 1%nat] I coeffs (LScalar false) rf freq g O O = Ok 2.
Proof.
  exists (fun _ => 1), (fun _ _ => 1), (fun _ => 1), (fun _ => 2), (fun _ _ => 0). split.
  - eexists. split; [reflexivity|]. cbn. field.
  - unfold dask_spectra. cbn. f_equal. field.
Qed.
Theorem positions_dropped posangle astropy sv : exists times positions fc,
  (exists whole, np_parallactic_angles posangle astropy 1 times 1 3 positions 2 fc "test" sv = Ok whole /\ whole O O = 3) /\
  dask_parallactic_angles posangle astropy [1%nat] [1%nat] [2%nat; 1%nat] [2%nat] times positions fc "test" sv O O = Ok 2.
Proof.
  exists (fun _ => 1), (fun _ _ => 1), (fun _ => 0). split.
  - eexists. split; [reflexivity|]. cbn. ring.
  - unfold dask_parallactic_angles. cbn. f_equal. ring.
Qed.

(* ---------- jax ---------- *)
Theorem jax_fourier nsrc nrow nchan lm uvw freq : exists k, phase_delay nsrc nrow nchan lm uvw freq "fourier" = Ok k /\
  forall s r f, (s < nsrc)%nat -> (r < nrow)%nat -> (f < nchan)%nat -> jax_phase_delay lm uvw freq s r f = k s r f.
Proof.
  eexists. split; [reflexivity|]. intros s r f Hs Hr Hf. rewrite phase_loop by auto. unfold jax_phase_delay, cexp, cis, n1. cbn [fst snd].
  rewrite Rmult_0_l, exp_0, !Rmult_1_l.
  replace (1 - lm s 0%nat ^ 2 - lm s 1%nat ^ 2) with (1 - lm s 0%nat * lm s 0%nat - lm s 1%nat * lm s 1%nat) by ring.
  f_equal; f_equal; ring.
Qed.
