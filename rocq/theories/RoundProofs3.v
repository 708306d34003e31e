(* Rounding errors of the prediction, whole and in chunks. *)
From Coq Require Import Reals Lra Lia Permutation.
From Verif Require Import Prelude PreludeFacts CRing CplxR PredictModel PredictSpec PredictProofs DaskPredictModel DaskPredictSpec DaskPredictProofs DaskPredictProofs2
  RoundModel RoundSpec RoundProofs RoundProofs2.
Open Scope nat_scope.

Lemma map_shapes {K K' : cops} (f : K -> K') full nsrc nchan ncorr a : shapes full nsrc nchan ncorr a -> shapes full nsrc nchan ncorr (map_in f a).
Proof.
  intros [S1 S2 S3 S4 S5 S6]. constructor; cbn [p_dde1 p_dde2 p_coh p_die1 p_die2 p_bvis p_nrow map_in].
  - intros e H. destruct (p_dde1 a) as [x|]; [|discriminate]. injection H as <-. exact (S1 x eq_refl).
  - intros e H. destruct (p_dde2 a) as [x|]; [|discriminate]. injection H as <-. exact (S2 x eq_refl).
  - intros e H. destruct (p_coh a) as [x|]; [|discriminate]. injection H as <-. exact (S3 x eq_refl).
  - intros e H. destruct (p_die1 a) as [x|]; [|discriminate]. injection H as <-. exact (S4 x eq_refl).
  - intros e H. destruct (p_die2 a) as [x|]; [|discriminate]. injection H as <-. exact (S5 x eq_refl).
  - intros e H. destruct (p_bvis a) as [x|]; [|discriminate]. injection H as <-. exact (S6 x eq_refl).
Qed.
Lemma paired_map {A B A' B'} (f : A -> A') (g : B -> B') x y : paired x y -> paired (option_map f x) (option_map g y).
Proof. unfold paired. destruct x, y; cbn; intuition congruence. Qed.
Lemma some_map {A B} (f : A -> B) x : x <> None -> option_map f x <> None.
Proof. destruct x; cbn; congruence. Qed.
Lemma map_supplied {K K' : cops} (f : K -> K') (a : predict_in K) : supplied a -> supplied (map_in f a).
Proof. unfold supplied. cbn. intros [H|[H|[H|H]]]; auto using some_map. Qed.
Lemma map_chunks {K K' : cops} (f : K -> K') ch nsrc nchan (a : predict_in K) : chunks_ok ch nsrc nchan a -> chunks_ok ch nsrc nchan (map_in f a).
Proof. intros [C1 C2 C3 C4 C5 C6]. now constructor. Qed.

(* ---------- blocks, without laws ---------- *)
Section Blocks.
  Context {K : cops} (full : bool) (nsrc nchan ncorr : nat) (a : predict_in K) (ch : chunking).
  Context (Sh : shapes full nsrc nchan ncorr a) (Co : chunks_ok ch nsrc nchan a).
  Context (P1 : paired (p_dde1 a) (p_dde2 a)) (P2 : paired (p_die1 a) (p_die2 a)).
  Lemma blk_shapes sb rb cb bv : (forall b, bv = Some b -> vshape full ncorr ch rb cb b) ->
    shapes full (nth sb (ck_src ch) 0%nat) (nth cb (ck_chan ch) 0%nat) ncorr (blk_in a ch sb rb cb bv).
  Proof.
    clear P1 P2 Co. intros Hbv. destruct Sh as [S1 S2 S3 _ _ _]. constructor; cbn [p_dde1 p_dde2 p_coh p_die1 p_die2 p_bvis p_nrow blk_in]; try discriminate.
    - intros e H. destruct (p_dde1 a) as [x|]; [|discriminate]. injection H as <-. cbn. destruct (S1 x eq_refl). tauto.
    - intros e H. destruct (p_dde2 a) as [x|]; [|discriminate]. injection H as <-. cbn. destruct (S2 x eq_refl). tauto.
    - intros e H. destruct (p_coh a) as [x|]; [|discriminate]. injection H as <-. cbn. destruct (S3 x eq_refl). tauto.
    - intros b H. destruct (Hbv b H). tauto.
  Qed.
  Lemma dies_shapes rb cb bv : (forall b, bv = Some b -> vshape full ncorr ch rb cb b) ->
    shapes full 0 (nth cb (ck_chan ch) 0%nat) ncorr (dies_in a ch rb cb bv).
  Proof.
    clear P1 P2 Co. intros Hbv. destruct Sh as [_ _ _ S4 S5 _]. constructor; cbn [p_dde1 p_dde2 p_coh p_die1 p_die2 p_bvis p_nrow dies_in]; try discriminate.
    - intros g H. destruct (p_die1 a) as [x|]; [|discriminate]. injection H as <-. cbn. destruct (S4 x eq_refl). tauto.
    - intros g H. destruct (p_die2 a) as [x|]; [|discriminate]. injection H as <-. cbn. destruct (S5 x eq_refl). tauto.
    - intros b H. destruct (Hbv b H). tauto.
  Qed.
  Context (Hs : p_dde1 a <> None \/ p_coh a <> None).
  Notation chain_ := (chain predict_func ([0; 3] ++ cdims (ncorr_dims a)) (lr_indices (ncorr_dims a) a) (lr_dim_blocks ch) 7 1 (input_store ch a)).
  Notation bs_of rb cb := ([rb; cb] ++ repeat 0%nat (ncorr_dims a)).
  Lemma chain_0 rb cb : chain_ 0 (bs_of rb cb) = match predict_vis (blk_in a ch 0 rb cb None) with Ok v => VVis v | Raise e => VErr e end.
  Proof. cbn [chain]. rewrite (argvals_eq full nsrc nchan ncorr a ch Sh P1 Hs). exact (predict_func_eq a ch P1 0 rb cb None). Qed.
  Lemma chain_S k w rb cb : chain_ k (bs_of rb cb) = VVis w ->
    chain_ (S k) (bs_of rb cb) = match predict_vis (blk_in a ch (S k) rb cb (Some w)) with Ok v => VVis v | Raise e => VErr e end.
  Proof.
    intros E. etransitivity; [exact (f_equal predict_func (argvals_eq full nsrc nchan ncorr a ch Sh P1 Hs (Some (chain_ k (bs_of rb cb))) (S k) rb cb))|].
    rewrite E. exact (predict_func_eq a ch P1 (S k) rb cb (Some w)).
  Qed.
  Lemma blk_supplied sb rb cb bv : supplied (blk_in a ch sb rb cb bv).
  Proof. unfold supplied. cbn. destruct Hs as [H|H]; auto using some_map. Qed.
End Blocks.

Section Near.
  Context (fl : R -> R) (u : R) (Hu : roundoff fl u).
  Notation F := (rounded fl).
  Notation jnear := (jnear fl u).
  Notation tracks := (tracks fl u).
  Definition vnear (k : nat) (full : bool) (nrow nchan ncorr : nat) (x : vis_arr F) (y : vis_arr RC) (z : vis_arr RR) : Prop :=
    forall r f, r < nrow -> f < nchan -> jnear k full ncorr (v_at x r f) (v_at y r f) (v_at z r f).
  Lemma jnear_mono j k full n x y z : j <= k -> jnear j full n x y z -> jnear k full n x y z.
  Proof. intros H N i l C. apply (near_mono fl u Hu j k); [exact H|]. now apply N. Qed.
  Lemma vnear_mono j k full nr nc n x y z : j <= k -> vnear j full nr nc n x y z -> vnear k full nr nc n x y z.
  Proof. intros H N r f Hr Hf. apply (jnear_mono j k); [exact H|]. now apply N. Qed.

  (* one call of predict_vis in the three arithmetics *)
  Lemma step k N full nsrc nchan ncorr a b c :
    shapes full nsrc nchan ncorr a -> shapes full nsrc nchan ncorr b -> shapes full nsrc nchan ncorr c ->
    paired (p_dde1 a) (p_dde2 a) -> paired (p_die1 a) (p_die2 a) -> paired (p_dde1 b) (p_dde2 b) -> paired (p_die1 b) (p_die2 b) ->
    paired (p_dde1 c) (p_dde2 c) -> paired (p_die1 c) (p_die2 c) -> supplied a -> supplied b -> supplied c ->
    p_nrow b = p_nrow a -> p_nrow c = p_nrow a -> p_time b = p_time a -> p_time c = p_time a -> 0 < p_nrow a ->
    tracks k full nchan ncorr a b c ->
    S (Nat.max (6 + nsrc) k) + 6 <= N \/ p_die1 a = None /\ S (Nat.max (6 + nsrc) k) <= N \/ p_die1 a = None /\ p_bvis a = None /\ 6 + nsrc <= N ->
    exists wa wb wc, predict_vis a = Ok wa /\ predict_vis b = Ok wb /\ predict_vis c = Ok wc /\
      (v_ndim wa = (if full then 4 else 3) /\ v_row wa = p_nrow a /\ v_chan wa = nchan /\ v_corr wa = ncorr) /\
      (v_ndim wb = (if full then 4 else 3) /\ v_row wb = p_nrow a /\ v_chan wb = nchan /\ v_corr wb = ncorr) /\
      (v_ndim wc = (if full then 4 else 3) /\ v_row wc = p_nrow a /\ v_chan wc = nchan /\ v_corr wc = ncorr) /\
      vnear N full (p_nrow a) nchan ncorr wa wb wc.
  Proof.
    intros Sa Sb Sc P1 P2 P3 P4 P5 P6 Ua Ub Uc Nb Nc Tb Tc Hn T HN.
    destruct (predict_free full nsrc nchan ncorr a Sa P1 P2 Ua Hn) as (wa & Ea & A1 & A2 & A3 & A4 & Fa).
    destruct (predict_free full nsrc nchan ncorr b Sb P3 P4 Ub ltac:(lia)) as (wb & Eb & B1 & B2 & B3 & B4 & Fb).
    destruct (predict_free full nsrc nchan ncorr c Sc P5 P6 Uc ltac:(lia)) as (wc & Ec & C1 & C2 & C3 & C4 & Fc).
    exists wa, wb, wc. rewrite Nb in *. rewrite Nc in *. repeat (split; [assumption|]).
    split; [auto|]. split; [auto|]. split; [auto|]. intros r f Hr Hf i j C.
    pose proof (zmin_is_min (p_nrow a) (p_time a) Hn) as Hm. set (tm := zmin (p_nrow a) (p_time a)) in *.
    rewrite Tb in Fb. rewrite Tc in Fc.
    rewrite (Fa tm Hm r f Hr Hf i j C), (Fb tm Hm r f Hr Hf i j C), (Fc tm Hm r f Hr Hf i j C).
    destruct (free_near fl u Hu k full nsrc nchan ncorr a b c (Z.to_nat (p_time a r - tm)) r f Sa T Hr Hf) as (G1 & G2 & G3).
    destruct HN as [HN|[[D HN]|[D [V HN]]]].
    - exact (jnear_mono _ _ _ _ _ _ _ HN G1 i j C).
    - exact (jnear_mono _ _ _ _ _ _ _ HN (G3 D) i j C).
    - exact (jnear_mono _ _ _ _ _ _ _ HN (G2 D V) i j C).
  Qed.

  Lemma dde_same (e : option (dde_arr RC)) : onear (dnear fl u) (option_map (map_dde (K := RC) (K' := F) (fun z => z)) e) e (option_map (map_dde (K := RC) (K' := RR) size) e).
  Proof. destruct e as [e|]; [|exact I]. split; [reflexivity|]. split; [reflexivity|]. intros. exact (near_self fl u Hu 0 _). Qed.
  Lemma coh_same (e : option (coh_arr RC)) : onear (hnear fl u) (option_map (map_coh (K := RC) (K' := F) (fun z => z)) e) e (option_map (map_coh (K := RC) (K' := RR) size) e).
  Proof. destruct e as [e|]; [|exact I]. split; [reflexivity|]. split; [reflexivity|]. intros. exact (near_self fl u Hu 0 _). Qed.
  Lemma die_same (e : option (die_arr RC)) : onear (gnear fl u) (option_map (map_die (K := RC) (K' := F) (fun z => z)) e) e (option_map (map_die (K := RC) (K' := RR) size) e).
  Proof. destruct e as [e|]; [|exact I]. cbn. intros t p f i j. exact (near_self fl u Hu 0 _). Qed.

  Lemma same full nchan ncorr (a : predict_in RC) : tracks 0 full nchan ncorr (stored fl a) a (sizes a).
  Proof.
    constructor; cbn; auto using dde_same, coh_same, die_same.
    destruct (p_bvis a) as [v|]; [|exact I]. cbn. intros r f _ _ i j _. exact (near_self fl u Hu 0 _).
  Qed.

  Theorem predict_rounding full nsrc nchan ncorr (a : predict_in RC) :
    shapes full nsrc nchan ncorr a -> paired (p_dde1 a) (p_dde2 a) -> paired (p_die1 a) (p_die2 a) -> supplied a -> 0 < p_nrow a ->
    exists out, predict_vis (stored fl a) = Ok out /\
      forall tmin, is_min (p_nrow a) (p_time a) tmin ->
      forall r f i j, r < p_nrow a -> f < nchan -> corr_ok full ncorr i j ->
        let t := Z.to_nat (p_time a r - tmin) in
        (apart (v_at out r f i j) (measurement full t a r f i j) <= gamma u (nsrc + 13) * measurement full t (sizes a) r f i j)%R.
  Proof.
    intros Sh P1 P2 Sup Hn.
    destruct (step 0 (nsrc + 13) full nsrc nchan ncorr (stored fl a) a (sizes a)) as (wa & wb & wc & Ea & Eb & Ec & _ & _ & _ & Nr);
      try (now apply map_shapes); try (now apply paired_map); try (now apply map_supplied); try assumption; try reflexivity.
    { apply same. } { left. lia. }
    exists wa. split; [exact Ea|]. intros tmin Hm r f i j Hr Hf C t.
    destruct (predict_vis_spec RC_laws full nsrc nchan ncorr a Sh P1 P2 Sup Hn) as (b' & Eb' & _ & _ & _ & _ & Fb).
    destruct (predict_vis_spec RR_laws full nsrc nchan ncorr (sizes a)) as (c' & Ec' & _ & _ & _ & _ & Fc);
      try (now apply map_shapes); try (now apply paired_map); try (now apply map_supplied); try assumption.
    rewrite Eb in Eb'. injection Eb' as <-. rewrite Ec in Ec'. injection Ec' as <-.
    destruct (Nr r f Hr Hf i j C) as [H _]. rewrite (Fb tmin Hm r f Hr Hf i j C) in H. rewrite (Fc tmin Hm r f Hr Hf i j C) in H. exact H.
  Qed.

  (* ---------- chunks ---------- *)
  Section Chunks.
    Context (full : bool) (nsrc nchan ncorr : nat) (b : predict_in RC) (ch : chunking).
    Context (Sh : shapes full nsrc nchan ncorr b) (Co : chunks_ok ch nsrc nchan b).
    Context (P1 : paired (p_dde1 b) (p_dde2 b)) (P2 : paired (p_die1 b) (p_die2 b)) (Hs : p_dde1 b <> None \/ p_coh b <> None).
    Notation a := (stored fl b).
    Notation c := (sizes b).
    Notation vshape_ := (vshape full ncorr ch).
    Notation vnear_ k rb cb := (vnear k full (nth rb (ck_row ch) 0%nat) (nth cb (ck_chan ch) 0%nat) ncorr).
    Let Sa : shapes full nsrc nchan ncorr a := map_shapes _ _ _ _ _ _ Sh.
    Let Sc : shapes full nsrc nchan ncorr c := map_shapes _ _ _ _ _ _ Sh.
    Let Hsa : p_dde1 a <> None \/ p_coh a <> None.
    Proof. destruct Hs; [left|right]; now apply some_map. Qed.
    Let Hsc : p_dde1 c <> None \/ p_coh c <> None.
    Proof. destruct Hs; [left|right]; now apply some_map. Qed.
    Let P1a : paired (p_dde1 a) (p_dde2 a) := paired_map _ _ _ _ P1.
    Let P1c : paired (p_dde1 c) (p_dde2 c) := paired_map _ _ _ _ P1.

    Lemma block_step k N sb rb cb va vb vc :
      rb < length (ck_row ch) ->
      onear (fun x y z => vshape_ rb cb x /\ vshape_ rb cb y /\ vshape_ rb cb z /\ vnear_ k rb cb x y z) va vb vc ->
      S (Nat.max (6 + nth sb (ck_src ch) 0) k) <= N \/ va = None /\ 6 + nth sb (ck_src ch) 0 <= N ->
      exists wa wb wc, predict_vis (blk_in a ch sb rb cb va) = Ok wa /\ predict_vis (blk_in b ch sb rb cb vb) = Ok wb /\ predict_vis (blk_in c ch sb rb cb vc) = Ok wc /\
        vshape_ rb cb wa /\ vshape_ rb cb wb /\ vshape_ rb cb wc /\ vnear_ N rb cb wa wb wc.
    Proof.
      intros Hrb V HN.
      destruct (step k N full (nth sb (ck_src ch) 0) (nth cb (ck_chan ch) 0) ncorr (blk_in a ch sb rb cb va) (blk_in b ch sb rb cb vb) (blk_in c ch sb rb cb vc))
        as (wa & wb & wc & Ea & Eb & Ec & (A1 & A2 & A3 & A4) & (B1 & B2 & B3 & B4) & (C1 & C2 & C3 & C4) & Nr);
        try reflexivity; try (unfold paired; cbn; tauto); try (cbn; apply paired_map; exact P1); try (cbn; do 2 apply paired_map; exact P1).
      - apply (blk_shapes full nsrc nchan); [exact Sa|]. intros v ->. destruct vb, vc; try contradiction. apply V.
      - apply (blk_shapes full nsrc nchan); [exact Sh|]. intros v ->. destruct va, vc; try contradiction. apply V.
      - apply (blk_shapes full nsrc nchan); [exact Sc|]. intros v ->. destruct va, vb; try contradiction. apply V.
      - now apply blk_supplied.
      - now apply blk_supplied.
      - now apply blk_supplied.
      - exact (co_row_pos _ _ _ _ Co rb Hrb).
      - clear Sa Sc Hsa Hsc P1a P1c P1 Hs. constructor; cbn; auto.
        + destruct (p_dde1 b) as [e|]; [|exact I]. split; [reflexivity|]. split; [reflexivity|]. intros. exact (near_self fl u Hu 0 _).
        + destruct (p_coh b) as [e|]; [|exact I]. split; [reflexivity|]. split; [reflexivity|]. intros. exact (near_self fl u Hu 0 _).
        + destruct (p_dde2 b) as [e|]; [|exact I]. split; [reflexivity|]. split; [reflexivity|]. intros. exact (near_self fl u Hu 0 _).
        + destruct va, vb, vc; try contradiction; [|exact I]. destruct V as (_ & _ & _ & V). exact V.
      - exists wa, wb, wc. cbn [p_nrow blk_in] in *. repeat (split; [assumption|]).
        split; [now constructor|]. split; [now constructor|]. split; [now constructor|]. exact Nr.
    Qed.
    Lemma src_le sb : nth sb (ck_src ch) 0 <= nsrc.
    Proof.
      destruct (le_lt_dec (length (ck_src ch)) sb) as [H|H]; [rewrite nth_overflow by exact H; lia|].
      pose proof (chunk_off_S (ck_src ch) sb H). pose proof (chunk_off_le (ck_src ch) (S sb) H). rewrite (co_src _ _ _ _ Co) in *. lia.
    Qed.

    Notation chain_ x := (chain predict_func ([0; 3] ++ cdims (ncorr_dims x)) (lr_indices (ncorr_dims x) x) (lr_dim_blocks ch) 7 1 (input_store ch x)).
    Notation bs_of x rb cb := ([rb; cb] ++ repeat 0%nat (ncorr_dims x)).
    Lemma stream_near rb cb : rb < length (ck_row ch) -> forall i, exists wa wb wc,
      chain_ a i (bs_of a rb cb) = VVis wa /\ chain_ b i (bs_of b rb cb) = VVis wb /\ chain_ c i (bs_of c rb cb) = VVis wc /\
      vshape_ rb cb wa /\ vshape_ rb cb wb /\ vshape_ rb cb wc /\ vnear_ (6 + nsrc + i) rb cb wa wb wc.
    Proof.
      intros Hrb. induction i as [|i IH].
      - pose proof (src_le 0). destruct (block_step 0 (6 + nsrc + 0) 0 rb cb None None None Hrb I) as (wa & wb & wc & Ea & Eb & Ec & V); [right; split; [reflexivity|lia]|].
        exists wa, wb, wc. rewrite (chain_0 full nsrc nchan ncorr a ch Sa P1a Hsa), (chain_0 full nsrc nchan ncorr b ch Sh P1 Hs), (chain_0 full nsrc nchan ncorr c ch Sc P1c Hsc), Ea, Eb, Ec. auto.
      - destruct IH as (va & vb & vc & Fa & Fb & Fc & V). pose proof (src_le (S i)).
        destruct (block_step (6 + nsrc + i) (6 + nsrc + S i) (S i) rb cb (Some va) (Some vb) (Some vc) Hrb V) as (wa & wb & wc & Ea & Eb & Ec & W); [left; lia|].
        exists wa, wb, wc. rewrite (chain_S full nsrc nchan ncorr a ch Sa P1a Hsa _ _ _ _ Fa), (chain_S full nsrc nchan ncorr b ch Sh P1 Hs _ _ _ _ Fb),
          (chain_S full nsrc nchan ncorr c ch Sc P1c Hsc _ _ _ _ Fc), Ea, Eb, Ec. auto.
    Qed.
    Lemma leaves_some t : 0 < length (leaves t).
    Proof. induction t; cbn; [lia|]. rewrite app_length. lia. Qed.
    Lemma tree_near rb cb t : rb < length (ck_row ch) -> exists wa wb wc,
      tree_sum ch a rb cb t = Ok wa /\ tree_sum ch b rb cb t = Ok wb /\ tree_sum ch c rb cb t = Ok wc /\
      vshape_ rb cb wa /\ vshape_ rb cb wb /\ vshape_ rb cb wc /\ vnear_ (5 + nsrc + length (leaves t)) rb cb wa wb wc.
    Proof.
      intros Hrb. induction t as [sb|l IHl r IHr].
      - pose proof (src_le sb). destruct (block_step 0 (5 + nsrc + 1) sb rb cb None None None Hrb I) as (wa & wb & wc & Ea & Eb & Ec & V); [right; split; [reflexivity|lia]|].
        exists wa, wb, wc. cbn [tree_sum]. auto.
      - destruct IHl as (wa & wb & wc & Ea & Eb & Ec & Va & Vb & Vc & Nl), IHr as (xa & xb & xc & Ga & Gb & Gc & _ & _ & _ & Nr).
        cbn [tree_sum]. rewrite Ea, Eb, Ec, Ga, Gb, Gc. cbn [bind]. do 3 eexists. repeat (split; [reflexivity|]).
        split; [destruct Va; now constructor|]. split; [destruct Vb; now constructor|]. split; [destruct Vc; now constructor|].
        intros p f Hp Hf i j C. cbn [leaves]. rewrite app_length. pose proof (leaves_some l). pose proof (leaves_some r).
        replace (5 + nsrc + (length (leaves l) + length (leaves r))) with (S (4 + nsrc + (length (leaves l) + length (leaves r)))) by lia.
        apply (near_add fl u Hu); cbn [v_at].
        + apply (near_mono fl u Hu (5 + nsrc + length (leaves l))); [lia|]. now apply Nl.
        + apply (near_mono fl u Hu (5 + nsrc + length (leaves r))); [lia|]. now apply Nr.
    Qed.

    Lemma dies_step k rb cb va vb vc : rb < length (ck_row ch) ->
      vshape_ rb cb va /\ vshape_ rb cb vb /\ vshape_ rb cb vc /\ vnear_ k rb cb va vb vc -> 6 <= k ->
      exists wa wb wc, dies_block ch a (Some va) rb cb = Ok wa /\ dies_block ch b (Some vb) rb cb = Ok wb /\ dies_block ch c (Some vc) rb cb = Ok wc /\
        vnear_ (k + 7) rb cb wa wb wc.
    Proof.
      intros Hrb V Hk.
      destruct (step k (k + 7) full 0 (nth cb (ck_chan ch) 0) ncorr (dies_in a ch rb cb (Some va)) (dies_in b ch rb cb (Some vb)) (dies_in c ch rb cb (Some vc)))
        as (wa & wb & wc & Ea & Eb & Ec & _ & _ & _ & Nr);
        try reflexivity; try (unfold paired; cbn; tauto); try (cbn; apply paired_map; exact P2); try (cbn; do 2 apply paired_map; exact P2);
        try (unfold supplied; cbn; right; right; right; discriminate).
      - apply (dies_shapes full nsrc nchan); [exact Sa|]. intros v E. injection E as <-. apply V.
      - apply (dies_shapes full nsrc nchan); [exact Sh|]. intros v E. injection E as <-. apply V.
      - apply (dies_shapes full nsrc nchan); [exact Sc|]. intros v E. injection E as <-. apply V.
      - exact (co_row_pos _ _ _ _ Co rb Hrb).
      - clear Sa Sc Hsa Hsc P1a P1c P1 P2 Hs. constructor; cbn; auto.
        + destruct (p_die1 b) as [e|]; [|exact I]. cbn. intros t p f i j. exact (near_self fl u Hu 0 _).
        + destruct (p_die2 b) as [e|]; [|exact I]. cbn. intros t p f i j. exact (near_self fl u Hu 0 _).
        + apply V.
      - left. lia.
      - exists wa, wb, wc. auto.
    Qed.

    Lemma finish_near k rb cb va vb vc : rb < length (ck_row ch) -> 6 <= k ->
      vshape_ rb cb va /\ vshape_ rb cb vb /\ vshape_ rb cb vc /\ vnear_ k rb cb va vb vc ->
      exists wa wb wc, finish_block ch a (Some va) rb cb = Ok wa /\ finish_block ch b (Some vb) rb cb = Ok wb /\ finish_block ch c (Some vc) rb cb = Ok wc /\
        vnear_ (k + 8) rb cb wa wb wc.
    Proof.
      intros Hrb Hk V. unfold finish_block.
      assert (G : (have (p_dde1 b) || have (p_coh b) || have (p_dde2 b) || have (p_die1 b) || have (p_die2 b))%bool = true).
      { clear Sa Sc Hsa Hsc P1a P1c P1. destruct Hs as [H|H]; [destruct (p_dde1 b); [reflexivity|congruence]|]. destruct (p_coh b); [|congruence]. cbn [have]. now rewrite orb_true_r. }
      assert (H : forall {A B} (f : A -> B) x, have (option_map f x) = have x) by (intros A B f [x|]; reflexivity).
      cbn [p_dde1 p_coh p_dde2 p_die1 p_die2 p_bvis stored sizes map_in]. rewrite !H, G. cbn [negb].
      pose proof Sh as [_ _ _ _ _ S6]. clearbody Sa Sc P1a P1c. destruct (p_bvis b) as [v|] eqn:Eb; cbn [option_map].
      - destruct (S6 v eq_refl) as (N1 & N2 & N3 & N4).
        destruct (dies_step (S k) rb cb (add_vis (blk_vis ch rb cb (map_vis (K := RC) (K' := F) (fun z => z) v)) va) (add_vis (blk_vis ch rb cb v) vb)
          (add_vis (blk_vis ch rb cb (map_vis (K := RC) (K' := RR) size v)) vc) Hrb) as (wa & wb & wc & Ea & Fb & Ec & N); [|lia|].
        + split; [now constructor|]. split; [now constructor|]. split; [now constructor|]. destruct V as (_ & _ & _ & V).
          intros r f Hr Hf i j C. apply (near_add fl u Hu); [exact (near_self fl u Hu k _)|]. now apply V.
        + exists wa, wb, wc. repeat (split; [assumption|]). apply (vnear_mono (S k + 7)); [lia|exact N].
      - destruct (have (p_die1 b) && have (p_die2 b)) eqn:Ed.
        + destruct (dies_step k rb cb va vb vc Hrb V Hk) as (wa & wb & wc & Ea & Fb & Ec & N).
          exists wa, wb, wc. repeat (split; [assumption|]). apply (vnear_mono (k + 7)); [lia|exact N].
        + exists va, vb, vc. repeat (split; [reflexivity|]). apply (vnear_mono k); [lia|apply V].
    Qed.
  End Chunks.

  Theorem chunked_rounding full nsrc nchan ncorr (a : predict_in RC) ch :
    shapes full nsrc nchan ncorr a -> paired (p_dde1 a) (p_dde2 a) -> paired (p_die1 a) (p_die2 a) ->
    chunks_ok ch nsrc nchan a -> (p_dde1 a <> None \/ p_coh a <> None) ->
    forall rb cb v, rb < length (ck_row ch) -> cb < length (ck_chan ch) -> reduction_value ch (stored fl a) rb cb v ->
    exists s out, v = VVis s /\ finish_block ch (stored fl a) (Some s) rb cb = Ok out /\
      forall tmin, is_min (p_nrow a) (p_time a) tmin ->
      forall r f i j, r < nth rb (ck_row ch) 0 -> f < nth cb (ck_chan ch) 0 -> corr_ok full ncorr i j ->
        let row := chunk_off (ck_row ch) rb + r in let chan := chunk_off (ck_chan ch) cb + f in
        let t := Z.to_nat (p_time a row - tmin) in
        (apart (v_at out r f i j) (measurement full t a row chan i j) <=
         gamma u (nsrc + length (ck_src ch) + 13) * measurement full t (sizes a) row chan i j)%R.
  Proof.
    intros Sh P1 P2 Co Hs rb cb v Hrb Hcb Hv.
    pose proof (co_row _ _ _ _ Co) as Er. pose proof (co_row_pos _ _ _ _ Co rb Hrb) as Ep.
    pose proof (in_range _ _ _ Hrb Ep) as Hn0. assert (Hn : 0 < p_nrow a) by lia.
    assert (Np : 0 < length (ck_src ch)) by (pose proof (co_src_some _ _ _ _ Co); destruct (ck_src ch); [congruence|simpl; lia]).
    assert (Hc : p_dde1 (sizes a) <> None \/ p_coh (sizes a) <> None) by (destruct Hs; [left|right]; now apply some_map).
    pose proof (map_shapes (K := RC) (K' := RR) size _ _ _ _ _ Sh : shapes full nsrc nchan ncorr (sizes a)) as Sc.
    pose proof (map_chunks (K := RC) (K' := RR) size _ _ _ _ Co : chunks_ok ch nsrc nchan (sizes a)) as Cc.
    assert (P1c : paired (p_dde1 (sizes a)) (p_dde2 (sizes a))) by now apply paired_map.
    assert (P2c : paired (p_die1 (sizes a)) (p_die2 (sizes a))) by now apply paired_map.
    assert (X : exists sa sb sc, v = VVis sa /\
      (forall tmin, is_min (p_nrow a) (p_time a) tmin -> partial_sum full ncorr a ch tmin nsrc rb cb sb /\ partial_sum full ncorr (sizes a) ch tmin nsrc rb cb sc) /\
      (vshape full ncorr ch rb cb sa /\ vshape full ncorr ch rb cb sb /\ vshape full ncorr ch rb cb sc /\
       vnear (5 + nsrc + length (ck_src ch)) full (nth rb (ck_row ch) 0) (nth cb (ck_chan ch) 0) ncorr sa sb sc)).
    { assert (Tr : forall t, Permutation (leaves t) (seq 0 (length (ck_src ch))) -> exists sa sb sc, tree_sum ch (stored fl a) rb cb t = Ok sa /\
        (forall tmin, is_min (p_nrow a) (p_time a) tmin -> partial_sum full ncorr a ch tmin nsrc rb cb sb /\ partial_sum full ncorr (sizes a) ch tmin nsrc rb cb sc) /\
        (vshape full ncorr ch rb cb sa /\ vshape full ncorr ch rb cb sb /\ vshape full ncorr ch rb cb sc /\
         vnear (5 + nsrc + length (ck_src ch)) full (nth rb (ck_row ch) 0) (nth cb (ck_chan ch) 0) ncorr sa sb sc)).
      { intros t Hp. destruct (tree_near full nsrc nchan ncorr a ch Sh Co P1 Hs rb cb t Hrb) as (wa & wb & wc & Ea & Eb & Ec & V).
        exists wa, wb, wc. split; [exact Ea|]. split.
        - intros tmin Hm. destruct (tree_ok RC_laws full nsrc nchan ncorr a ch Sh Co P1 P2 Hn tmin Hm Hs rb cb t Hrb Hp) as (w & Ew & Pw).
          destruct (tree_ok RR_laws full nsrc nchan ncorr (sizes a) ch Sc Cc P1c P2c Hn tmin Hm Hc rb cb t Hrb Hp) as (w' & Ew' & Pw').
          rewrite Eb in Ew. injection Ew as <-. rewrite Ec in Ew'. injection Ew' as <-. auto.
        - rewrite (Permutation_length Hp), seq_length in V. exact V. }
      destruct Hv as [dsk sched v HG HE|t v Hp HT|t e Hp HT].
      - apply (stream_value predict_func _ _ _ _ _ _ _ HG (input_keys (stored fl a) ch)) in HE.
        change (nblocks (lr_dim_blocks ch) 1) with (length (ck_src ch)) in HE.
        destruct (stream_near full nsrc nchan ncorr a ch Sh Co P1 Hs rb cb Hrb (length (ck_src ch) - 1)) as (wa & wb & wc & Ea & Eb & Ec & V).
        exists wa, wb, wc. split; [congruence|]. split.
        + intros tmin Hm. destruct (stream_partial RC_laws full nsrc nchan ncorr a ch Sh Co P1 P2 Hn tmin Hm Hs rb cb Hrb (length (ck_src ch) - 1) ltac:(lia)) as (w & Ew & Pw).
          destruct (stream_partial RR_laws full nsrc nchan ncorr (sizes a) ch Sc Cc P1c P2c Hn tmin Hm Hc rb cb Hrb (length (ck_src ch) - 1) ltac:(lia)) as (w' & Ew' & Pw').
          replace (S (length (ck_src ch) - 1)) with (length (ck_src ch)) in Pw, Pw' by lia.
          rewrite Eb in Ew. injection Ew as <-. rewrite Ec in Ew'. injection Ew' as <-. split; eapply total_sum; eauto.
        + replace (6 + nsrc + (length (ck_src ch) - 1)) with (5 + nsrc + length (ck_src ch)) in V by lia. exact V.
      - destruct (Tr t Hp) as (sa & sb & sc & E & V). rewrite HT in E. injection E as <-. exists v, sb, sc. auto.
      - destruct (Tr t Hp) as (sa & sb & sc & E & V). congruence. }
    destruct X as (sa & sb & sc & -> & Ps & V).
    destruct (finish_near full nsrc nchan ncorr a ch Sh Co P2 Hs (5 + nsrc + length (ck_src ch)) rb cb sa sb sc Hrb ltac:(lia) V) as (wa & wb & wc & Ea & Eb & Ec & N).
    exists sa, wa. split; [reflexivity|]. split; [exact Ea|]. intros tmin Hm r f i j Hr Hf C row chan t.
    destruct (Ps tmin Hm) as [Pb Pc].
    destruct (finish_some RC_laws full nsrc nchan ncorr a ch Sh Co P1 P2 Hn tmin Hm rb cb sb Hs Hrb Pb) as (ob & Fb & (_ & _ & _ & Mb)).
    destruct (finish_some RR_laws full nsrc nchan ncorr (sizes a) ch Sc Cc P1c P2c Hn tmin Hm rb cb sc Hc Hrb Pc) as (oc & Fc & (_ & _ & _ & Mc)).
    rewrite Eb in Fb. injection Fb as <-. rewrite Ec in Fc. injection Fc as <-.
    destruct (N r f Hr Hf i j C) as [H _]. rewrite (Mb r f Hr Hf i j C) in H. rewrite (Mc r f Hr Hf i j C) in H.
    replace (5 + nsrc + length (ck_src ch) + 8) with (nsrc + length (ck_src ch) + 13) in H by lia. exact H.
  Qed.
End Near.
