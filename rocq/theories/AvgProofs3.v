(* Proofs about the row mapper model, part 3: the complete function. *)
From Coq Require Import Sorting.Sorted Sorting.Permutation.
From Verif Require Import Prelude PreludeFacts NumpyModel AvgModel AvgSpec SortFacts AvgProofs AvgProofs2.

Lemma Zltb_order : order Z.ltb.
Proof.
  constructor.
  - intros. apply Z.ltb_irrefl.
  - intros x y z H1 H2. apply Z.ltb_lt in H1, H2. apply Z.ltb_lt. lia.
  - intros x y H1 H2. apply Z.ltb_ge in H1, H2. lia.
Qed.

Lemma zneqb_spec x y : zneqb x y = true <-> x <> y.
Proof.
  unfold zneqb. rewrite negb_true_iff. destruct (Z.eqb_spec x y); split; intros; congruence.
Qed.


Lemma bl_key_inj a1 a2 b1 b2 :
  is_int32 a1 -> is_int32 b1 -> bl_key a1 a2 = bl_key b1 b2 -> a1 = b1 /\ a2 = b2.
Proof.
  unfold is_int32, bl_key. intros H1 H2 E.
  pose proof (Z.mod_pos_bound a1 (2 ^ 32) ltac:(lia)) as M1.
  pose proof (Z.mod_pos_bound b1 (2 ^ 32) ltac:(lia)) as M2.
  assert (a2 = b2) by lia. split; [|assumption]. subst.
  assert (Em : (a1 mod 2 ^ 32 = b1 mod 2 ^ 32)%Z) by lia.
  pose proof (Z.div_mod a1 (2 ^ 32) ltac:(lia)).
  pose proof (Z.div_mod b1 (2 ^ 32) ltac:(lia)).
  lia.
Qed.

Lemma StronglySorted_snoc {A} (R : A -> A -> Prop) l x :
  StronglySorted R l -> (forall y, In y l -> R y x) -> StronglySorted R (l ++ [x]).
Proof.
  induction l as [|y l IH]; intros HS HR; simpl.
  - constructor; constructor.
  - inversion HS as [|? ? HS' HF]; subst. constructor.
    + apply IH; [exact HS'|]. intros z Hz. apply HR. now right.
    + apply Forall_app. split; [exact HF|]. constructor; [|constructor]. apply HR. now left.
Qed.

Lemma binrows_sorted (R : nat -> nat -> Prop) pres bk t b :
  (forall t1 t2 r1 r2, t1 < t2 -> t2 < t -> pres t1 = Some r1 -> pres t2 = Some r2 -> R r1 r2) ->
  StronglySorted R (binrows pres bk t b).
Proof.
  induction t as [|t IH]; intros H; [constructor|].
  rewrite binrows_S. destruct (pres t) as [r|] eqn:Ep.
  - destruct (bk t) as [b'|].
    + destruct (Nat.eqb b' b).
      * apply StronglySorted_snoc.
        -- apply IH. intros t1 t2 r1 r2 H1 H2. apply H; lia.
        -- intros y Hy. apply binrows_in in Hy. destruct Hy as [t' [A1 [A2 _]]].
           apply (H t' t); auto.
      * rewrite app_nil_r. apply IH. intros t1 t2 r1 r2 H1 H2. apply H; lia.
    + rewrite app_nil_r. apply IH. intros t1 t2 r1 r2 H1 H2. apply H; lia.
  - rewrite app_nil_r. apply IH. intros t1 t2 r1 r2 H1 H2. apply H; lia.
Qed.

Section Main.
  Context (F : arith) (OK : arith_ok F).
  Notation T := (num F).
  Context (n : nat) (time interval : arr T) (ant1 ant2 : arr Z)
          (flag_row : option (arr Z)) (secs : T).

  Context (H32 : forall i, i < n -> is_int32 (ant1 i) /\ is_int32 (ant2 i)).

  Definition low_of (r : nat) : T := sub F (time r) (half F (interval r)).
  Definition high_of (r : nat) : T := add F (time r) (half F (interval r)).
  Definition fsum (col : arr T) (l : list nat) : T := fold_left (add F) (map col l) (zero F).

  Definition same_bl (i j : nat) : Prop := ant1 i = ant1 j /\ ant2 i = ant2 j.

  Definition sentinel_big : Prop :=
    forall l, l <> [] -> NoDup l -> (forall r, In r l -> r < n) ->
      ltb F (divn F (fsum time l) (length l)) (sentinel F) = true.

  Definition nodup_rows : Prop :=
    forall i j, i < n -> j < n -> time i = time j -> same_bl i j -> i = j.

  (* r0 is the earliest row of the baseline of r *)
  Definition first_row (r0 r : nat) : Prop :=
    r0 < n /\ same_bl r0 r /\
    forall j, j < n -> same_bl j r -> ltb F (time j) (time r0) = false.

  Record map_ok (out : row_map_output F) : Prop := {
    mo_range : forall i, i < n -> rm_map F out i < rm_out_rows F out;
    mo_rows : forall k, k < rm_out_rows F out ->
      exists l, l <> [] /\
        StronglySorted (fun i j => ltb F (time i) (time j) = true) l /\
        (forall i, In i l <-> i < n /\ rm_map F out i = k) /\
        rm_time F out k = divn F (fsum time l) (length l) /\
        rm_interval F out k = fsum interval l /\
        (forall fr, flag_row = Some fr ->
           exists ofr, rm_flag_row F out = Some ofr /\
             (ofr k = 1%Z /\ (forall i, In i l -> fr i <> 0%Z) \/
              ofr k = 0%Z /\ exists i, In i l /\ fr i = 0%Z));
    mo_noflag : flag_row = None -> rm_flag_row F out = None;
    mo_bl : forall i j, i < n -> j < n -> rm_map F out i = rm_map F out j -> same_bl i j;
    mo_contig : forall i m j, i < n -> m < n -> j < n -> same_bl i m -> same_bl m j ->
       ltb F (time m) (time i) = false -> ltb F (time j) (time m) = false ->
       rm_map F out i = rm_map F out j -> rm_map F out m = rm_map F out i;
    mo_sorted : forall k1 k2, k1 < k2 -> k2 < rm_out_rows F out ->
       ltb F (rm_time F out k2) (rm_time F out k1) = false;
    mo_ties : forall i j, i < n -> j < n -> rm_map F out i < rm_map F out j ->
       rm_time F out (rm_map F out i) = rm_time F out (rm_map F out j) ->
       (bl_key (ant1 i) (ant2 i) < bl_key (ant1 j) (ant2 j))%Z \/
       (same_bl i j /\ ltb F (time i) (time j) = true);
    mo_open : forall r0 r, r < n -> first_row r0 r -> r0 <> r ->
       ((exists p, p < n /\ rm_map F out p = rm_map F out r /\ ltb F (time p) (time r) = true) <->
        ltb F secs (sub F (high_of r) (low_of r0)) = false)
  }.

  Lemma row_mapper_dup i j :
    i < n -> j < n -> i <> j -> time i = time j -> same_bl i j ->
    row_mapper F n time interval ant1 ant2 flag_row secs = Raise ValueError.
  Proof.
    intros Hi Hj Hne Et [E1 E2]. unfold row_mapper, unique_baselines.
    destruct (unique_internal Z.ltb zneqb n _) as [[[ret idx] bl_inv] cnt] eqn:EB.
    destruct (unique_internal (ltb F) (neqb F) n time) as [[[ut idx2] time_inv] cnt2] eqn:ET.
    pose proof (unique_internal_spec Z.ltb Zltb_order zneqb zneqb_spec n _ _ _ _ _ EB)
      as (B1 & B2 & B3 & _).
    pose proof (unique_internal_spec (ltb F) (aok_order F OK) (neqb F) (aok_neq F OK) n _ _ _ _ _ ET)
      as (T1 & T2 & T3 & _).
    assert (X : bl_inv i = bl_inv j).
    { apply (strict_inj Z.ltb Zltb_order ret B1 _ _ _ (B3 i Hi)).
      rewrite (B3 j Hj), E1, E2. reflexivity. }
    assert (Y : time_inv i = time_inv j).
    { apply (strict_inj (ltb F) (aok_order F OK) ut T1 _ _ _ (T3 i Hi)).
      rewrite (T3 j Hj), Et. reflexivity. }
    destruct (lt_eq_lt_dec i j) as [[H|H]|H]; [|congruence|].
    - rewrite (row_lookup_dup n bl_inv time_inv i j); auto.
    - rewrite (row_lookup_dup n bl_inv time_inv j i); auto.
  Qed.

  Context (HS : sentinel_big) (HD : nodup_rows).

  Lemma row_mapper_main :
    exists out, row_mapper F n time interval ant1 ant2 flag_row secs = Ok out /\ map_ok out.
  Proof.
    unfold row_mapper, unique_baselines.
    destruct (unique_internal Z.ltb zneqb n _) as [[[ret idx] bl_inv] cnt] eqn:EB.
    destruct (unique_internal (ltb F) (neqb F) n time) as [[[ut idx2] time_inv] cnt2] eqn:ET.
    pose proof (aok_order F OK) as OF.
    pose proof (unique_internal_spec Z.ltb Zltb_order zneqb zneqb_spec n _ _ _ _ _ EB)
      as (B1 & _ & B3 & _).
    pose proof (unique_internal_spec (ltb F) OF (neqb F) (aok_neq F OK) n _ _ _ _ _ ET)
      as (T1 & T2 & T3 & _).
    clear EB ET idx cnt idx2 cnt2.
    rewrite map_length. set (nbl := length ret) in *. set (ntime := length ut) in *.
    (* inverse indices decide equality and order *)
    assert (Hbl_lt : forall i, i < n -> bl_inv i < nbl).
    { intros i Hi. apply nth_error_Some. rewrite (B3 i Hi). discriminate. }
    assert (Ht_lt : forall i, i < n -> time_inv i < ntime).
    { intros i Hi. apply nth_error_Some. rewrite (T3 i Hi). discriminate. }
    assert (Hbl_eq : forall i j, i < n -> j < n -> (bl_inv i = bl_inv j <-> same_bl i j)).
    { intros i j Hi Hj. split.
      - intros E. pose proof (B3 i Hi) as X. rewrite E, (B3 j Hj) in X. injection X as X.
        symmetry in X. apply bl_key_inj in X; [exact X| |]; now apply H32.
      - intros [E1 E2]. apply (strict_inj Z.ltb Zltb_order ret B1 _ _ _ (B3 i Hi)).
        rewrite (B3 j Hj), E1, E2. reflexivity. }
    assert (Hbl_ord : forall i j, i < n -> j < n -> bl_inv i < bl_inv j ->
              (bl_key (ant1 i) (ant2 i) < bl_key (ant1 j) (ant2 j))%Z).
    { intros i j Hi Hj Hl. apply Z.ltb_lt.
      exact (strict_nth Z.ltb ret B1 _ _ _ _ (B3 i Hi) (B3 j Hj) Hl). }
    assert (Ht_eq : forall i j, i < n -> j < n -> (time_inv i = time_inv j <-> time i = time j)).
    { intros i j Hi Hj. split.
      - intros E. pose proof (T3 i Hi) as X. rewrite E, (T3 j Hj) in X. now injection X.
      - intros E. apply (strict_inj (ltb F) OF ut T1 _ _ _ (T3 i Hi)).
        rewrite (T3 j Hj), E. reflexivity. }
    assert (Ht_ord : forall i j, i < n -> j < n -> (time_inv i < time_inv j <-> ltb F (time i) (time j) = true)).
    { intros i j Hi Hj. split.
      - intros Hl. exact (strict_nth (ltb F) ut T1 _ _ _ _ (T3 i Hi) (T3 j Hj) Hl).
      - intros Hl. destruct (lt_eq_lt_dec (time_inv i) (time_inv j)) as [[X|X]|X]; [exact X| |].
        + apply Ht_eq in X; auto. rewrite X, (ord_irrefl _ OF) in Hl. discriminate.
        + pose proof (strict_nth (ltb F) ut T1 _ _ _ _ (T3 j Hj) (T3 i Hi) X) as Y.
          rewrite (ord_asym _ OF _ _ Y) in Hl. discriminate. }
    assert (Hdup : dup_free n bl_inv time_inv).
    { intros i j Hi Hj E1 E2. apply HD; auto; [now apply Ht_eq|now apply Hbl_eq]. }
    destruct (row_lookup_ok n bl_inv time_inv Hdup) as [rl [Erl Hrl]].
    rewrite Erl. cbn [bind].
    destruct (bl_loop_spec F time interval flag_row secs rl ntime nbl) as [nbf [L1 [L2 _]]].
    fold (acc0 F).
    set (a := for_ nbl _ (acc0 F)) in *.
    set (flat_time := fun k => a_time F a (k / ntime) (k mod ntime)).
    set (flat_int := fun k => a_int F a (k / ntime) (k mod ntime)).
    set (L := argsort (ltb F) (nbl * ntime) flat_time).
    set (out_rows := a_out_rows F a) in *.
    pose (rows := fun bl b => binrows (rl bl) (a_bin_lookup F a bl) ntime b).
    (* membership in a cell *)
    assert (Hrows : forall bl b r, bl < nbl ->
              (In r (rows bl b) <-> r < n /\ bl_inv r = bl /\ a_bin_lookup F a bl (time_inv r) = Some b)).
    { intros bl b r Hbl. unfold rows. rewrite binrows_in. split.
      - intros [t' [A1 [A2 A3]]]. apply Hrl in A2. destruct A2 as [A4 [A5 A6]]. subst. auto.
      - intros [A1 [A2 A3]]. exists (time_inv r). split; [auto|]. split; [|exact A3].
        apply Hrl. auto. }
    assert (Hrows_sorted : forall bl b,
              StronglySorted (fun i j => ltb F (time i) (time j) = true) (rows bl b)).
    { intros bl b. apply binrows_sorted. intros t1 t2 r1 r2 Hlt _ P1 P2.
      apply Hrl in P1, P2. destruct P1 as [A1 [A2 A3]], P2 as [A4 [A5 A6]].
      apply Ht_ord; auto. lia. }
    assert (Hrows_nodup : forall bl b, NoDup (rows bl b)).
    { intros bl b. specialize (Hrows_sorted bl b).
      induction Hrows_sorted as [|x l HSl IH HF]; constructor; [|exact IH].
      intros Hin. rewrite Forall_forall in HF. specialize (HF x Hin).
      rewrite (ord_irrefl _ OF) in HF. discriminate. }
    (* every row sits in exactly one bin *)
    assert (Hcell : forall i, i < n -> exists b, a_bin_lookup F a (bl_inv i) (time_inv i) = Some b).
    { intros i Hi. destruct (a_bin_lookup F a (bl_inv i) (time_inv i)) as [b|] eqn:E; [eauto|].
      exfalso. apply (bf_some _ _ _ _ _ _ _ _ _ _ _ _ _ (L2 _ (Hbl_lt i Hi))) in E; [|auto].
      assert (rl (bl_inv i) (time_inv i) = Some i) by (apply Hrl; auto). congruence. }
    (* valid flat cells *)
    pose (valid := fun k => Nat.ltb (k mod ntime) (nbf (k / ntime))).
    assert (Hnt : forall i, i < n -> 0 < ntime) by (intros i Hi; specialize (Ht_lt i Hi); lia).
    assert (Hdiv : forall k, k < nbl * ntime -> ntime <> 0 /\ k / ntime < nbl /\ k mod ntime < ntime).
    { intros k Hk. assert (ntime <> 0) by (intros E; rewrite E in Hk; lia).
      split; [assumption|]. split; [apply Nat.div_lt_upper_bound; lia|apply Nat.mod_upper_bound; assumption]. }
    assert (Hcellk : forall bl b, b < ntime -> (bl * ntime + b) / ntime = bl /\ (bl * ntime + b) mod ntime = b).
    { intros bl b Hb. split.
      - rewrite Nat.add_comm, Nat.div_add by lia. rewrite Nat.div_small by lia. lia.
      - rewrite Nat.add_comm, Nat.mod_add by lia. apply Nat.mod_small. lia. }
    assert (Hvalid_time : forall k, k < nbl * ntime ->
              if valid k then ltb F (flat_time k) (sentinel F) = true /\
                              flat_time k = divn F (fsum time (rows (k / ntime) (k mod ntime)))
                                                   (length (rows (k / ntime) (k mod ntime))) /\
                              flat_int k = fsum interval (rows (k / ntime) (k mod ntime)) /\
                              rows (k / ntime) (k mod ntime) <> [] /\
                              a_flagged F a (k / ntime) (k mod ntime) =
                                Nat.eqb (length (rows (k / ntime) (k mod ntime)))
                                        (nflag flag_row (rows (k / ntime) (k mod ntime)))
              else flat_time k = sentinel F).
    { intros k Hk. destruct (Hdiv k Hk) as [D1 [D2 D3]]. unfold valid.
      pose proof (L2 _ D2) as X.
      destruct (Nat.ltb_spec (k mod ntime) (nbf (k / ntime))) as [Hv|Hv].
      - pose proof (bf_time _ _ _ _ _ _ _ _ _ _ _ _ _ X _ Hv) as Y.
        change (flat_time k = divn F (fsum time (rows (k / ntime) (k mod ntime)))
                                   (length (rows (k / ntime) (k mod ntime)))) in Y.
        pose proof (bf_nonempty _ _ _ _ _ _ _ _ _ _ _ _ _ X _ Hv) as Z.
        change (rows (k / ntime) (k mod ntime) <> []) in Z.
        split; [|split; [exact Y|split; [|split; [exact Z|]]]].
        + rewrite Y. apply HS; auto. intros r Hr. now apply Hrows in Hr.
        + exact (bf_int _ _ _ _ _ _ _ _ _ _ _ _ _ X _ Hv).
        + exact (bf_flag _ _ _ _ _ _ _ _ _ _ _ _ _ X _ Hv).
      - exact (bf_sent _ _ _ _ _ _ _ _ _ _ _ _ _ X _ Hv D3). }
    (* the sorted permutation starts with the valid cells *)
    pose proof (argsort_perm (ltb F) OF (nbl * ntime) flat_time) as LP. fold L in LP.
    pose proof (argsort_sorted (ltb F) OF (nbl * ntime) flat_time) as LS. fold L in LS.
    pose proof (argsort_in (ltb F) OF (nbl * ntime) flat_time) as LI. fold L in LI.
    pose proof (argsort_nodup (ltb F) OF (nbl * ntime) flat_time) as LN. fold L in LN.
    assert (HL : L = filter valid L ++ filter (fun k => negb (valid k)) L).
    { apply (sorted_partition (before (ltb F) flat_time) valid L LS).
      intros x y Hx Hy Vx Vy Hb. apply LI in Hx, Hy.
      pose proof (Hvalid_time x Hx) as X. rewrite Vx in X.
      pose proof (Hvalid_time y Hy) as Y. rewrite Vy in Y. destruct Y as [Y _].
      destruct Hb as [Hb|[Hb _]].
      - rewrite X in Hb. rewrite (ord_asym _ OF _ _ Y) in Hb. discriminate.
      - rewrite X in Hb. rewrite <- Hb, (ord_irrefl _ OF) in Y. discriminate. }
    assert (Hlen : length (filter valid L) = out_rows).
    { rewrite (filter_perm_length valid _ _ LP), L1.
      apply filter_cells. intros bl Hbl. apply (bf_nb _ _ _ _ _ _ _ _ _ _ _ _ _ (L2 _ Hbl)). }
    assert (Hpos : forall k, k < out_rows -> exists c, nth_error L k = Some c /\ c < nbl * ntime /\ valid c = true).
    { intros k Hk. assert (Hk' : k < length (filter valid L)) by lia.
      destruct (nth_error (filter valid L) k) as [c|] eqn:E; [|apply nth_error_None in E; lia].
      exists c. pose proof (nth_error_In _ _ E) as Hin. apply filter_In in Hin. destruct Hin as [Hin Hv].
      split; [|split; [now apply LI|exact Hv]].
      rewrite HL, nth_error_app1 by lia. exact E. }
    assert (Hval_pos : forall c, c < nbl * ntime -> valid c = true ->
               exists k, k < out_rows /\ nth_error L k = Some c).
    { intros c Hc Hv. assert (Hin : In c (filter valid L)) by (apply filter_In; split; [now apply LI|exact Hv]).
      apply In_nth_error in Hin. destruct Hin as [k Hk]. exists k.
      assert (k < length (filter valid L)) by (apply nth_error_Some; congruence).
      split; [lia|]. rewrite HL, nth_error_app1 by lia. exact Hk. }
    (* the output row of an input row *)
    assert (Hout : forall i, i < n -> exists b k,
               a_bin_lookup F a (bl_inv i) (time_inv i) = Some b /\
               b < ntime /\ k < out_rows /\
               nth_error L k = Some (bl_inv i * ntime + b) /\
               inv_argsort_loop L 0 (fun _ => None) (bl_inv i * ntime + b) = Some k /\
               In i (rows (bl_inv i) b)).
    { intros i Hi. destruct (Hcell i Hi) as [b Hb].
      pose proof (L2 _ (Hbl_lt i Hi)) as X.
      pose proof (bf_lt _ _ _ _ _ _ _ _ _ _ _ _ _ X _ _ Hb) as Hlt.
      pose proof (bf_nb _ _ _ _ _ _ _ _ _ _ _ _ _ X) as Hnb.
      assert (Hbt : b < ntime) by lia.
      destruct (Hcellk (bl_inv i) b Hbt) as [C1 C2].
      assert (Hc : bl_inv i * ntime + b < nbl * ntime).
      { specialize (Hbl_lt i Hi). nia. }
      destruct (Hval_pos (bl_inv i * ntime + b) Hc) as [k [K1 K2]].
      { unfold valid. rewrite C1, C2. now apply Nat.ltb_lt. }
      exists b, k. split; [exact Hb|]. split; [exact Hbt|]. split; [exact K1|].
      split; [exact K2|]. split; [now apply inv_argsort_nth|].
      apply Hrows; auto. }
    pose (fin := fun m (s : arr nat * option (arr Z)) =>
       (forall i, i < m -> exists b, a_bin_lookup F a (bl_inv i) (time_inv i) = Some b /\
                     b < ntime /\ fst s i < out_rows /\
                     nth_error L (fst s i) = Some (bl_inv i * ntime + b) /\
                     (forall fr, flag_row = Some fr -> exists ofr, snd s = Some ofr /\
                          ofr (fst s i) = (if a_flagged F a (bl_inv i) b then 1 else 0)%Z)) /\
       (flag_row = None <-> snd s = None)).
    assert (Hfin : exists s, forM n (map_step flag_row ntime out_rows bl_inv time_inv
                (a_bin_lookup F a) (a_flagged F a) (inv_argsort_loop L 0 (fun _ => None)))
                ((fun _ => 0), match flag_row with Some _ => Some (fun _ => 0%Z) | None => None end)
                = Ok s /\ fin n s).
    { apply (forM_inv fin).
      - split; [intros i Hi; lia|]. cbn [snd]. clear. destruct flag_row; split; intros; try reflexivity; discriminate.
      - intros k s Hk [I1 I2]. destruct (Hout k Hk) as [b [o [O1 [O2 [O3 [O4 [O5 O6]]]]]]].
        unfold map_step. rewrite O1, O5.
        destruct (Nat.leb_spec out_rows o); [lia|].
        assert (Hold : forall v i, i < k -> upd (fst s) k v i = fst s i)
          by (intros; apply upd_neq; lia).
        assert (Hsame : forall i b', i < k -> nth_error L (fst s i) = Some (bl_inv i * ntime + b') ->
                  b' < ntime -> fst s i = o -> bl_inv i = bl_inv k /\ b' = b).
        { intros i b' _ E Hb' Eo. rewrite Eo, O4 in E. injection E as E.
          destruct (Hcellk (bl_inv i) b' Hb') as [X1 X2].
          destruct (Hcellk (bl_inv k) b O2) as [X3 X4].
          rewrite <- E, X3 in X1. rewrite <- E, X4 in X2. auto. }
        destruct flag_row as [fr|] eqn:Efr.
        + destruct (snd s) as [ofr|] eqn:Es; [|exfalso; destruct I2 as [_ I2]; specialize (I2 eq_refl); discriminate].
          destruct (Z.eqb (fr k) 0 && a_flagged F a (bl_inv k) b) eqn:Eerr.
          { exfalso. apply andb_true_iff in Eerr. destruct Eerr as [E1 E2]. apply Z.eqb_eq in E1.
            assert (Hc : bl_inv k * ntime + b < nbl * ntime).
            { apply LI. eapply nth_error_In; eauto. }
            destruct (Hcellk (bl_inv k) b O2) as [C1 C2].
            destruct (Hpos o O3) as [c [P1 [P2 P3]]]. rewrite O4 in P1. injection P1 as <-.
            pose proof (Hvalid_time _ Hc) as V. rewrite P3 in V.
            destruct V as [_ [_ [_ [_ V]]]]. rewrite C1, C2 in V.
            rewrite V in E2. apply Nat.eqb_eq in E2. unfold nflag in E2.
            clear -E1 E2 O6. revert E2 O6. generalize (rows (bl_inv k) b) as l.
            induction l as [|x l IH]; intros E2 Hin; [contradiction|].
            assert (Hle : forall l', length (filter (is_flagged (Some fr)) l') <= length l').
            { induction l' as [|y l' IHl]; simpl; [lia|]. destruct (negb (fr y =? 0)%Z); simpl; lia. }
            cbn [filter length] in E2. specialize (Hle l).
            destruct (is_flagged (Some fr) x) eqn:Ex; cbn [length] in E2; [|lia].
            destruct Hin as [->|Hin]; [|apply IH; [lia|exact Hin]].
            simpl in Ex. rewrite E1 in Ex. discriminate. }
          cbn [bind]. eexists. split; [reflexivity|]. split.
          * intros i Hi. cbn [fst snd]. destruct (Nat.eq_dec i k) as [->|Hne].
            -- exists b. rewrite upd_eq. repeat split; auto.
               intros fr' Hfr'. eexists. split; [reflexivity|]. apply upd_eq.
            -- rewrite Hold by lia. destruct (I1 i ltac:(lia)) as [b' [J1 [J2 [J3 [J4 J5]]]]].
               exists b'. repeat split; auto. intros fr' Hfr'.
               destruct (J5 fr' Hfr') as [ofr' [K1 K2]]. injection K1 as <-.
               eexists. split; [reflexivity|].
               destruct (Nat.eq_dec (fst s i) o) as [Eo|Eo].
               ++ rewrite Eo, upd_eq. destruct (Hsame i b' ltac:(lia) J4 J2 Eo) as [-> ->]. reflexivity.
               ++ rewrite upd_neq by assumption. exact K2.
          * cbn [snd]. split; intros; discriminate.
        + cbn [bind]. eexists. split; [reflexivity|]. split.
          * intros i Hi. cbn [fst snd]. destruct (Nat.eq_dec i k) as [->|Hne].
            -- exists b. rewrite upd_eq. repeat split; auto; intros; discriminate.
            -- rewrite Hold by lia. destruct (I1 i ltac:(lia)) as [b' [J1 [J2 [J3 [J4 J5]]]]].
               exists b'. repeat split; auto; intros; discriminate.
          * cbn [snd]. exact I2. }
    destruct Hfin as [s [Es [S1 S2]]].
    fold flat_time. fold flat_int. fold L. fold out_rows. rewrite Es. cbn [bind].
    eexists. split; [reflexivity|].
    (* uniform description of map *)
    assert (Hmap_eq : forall i c, i < n -> nth_error L (fst s i) = Some c -> c < nbl * ntime ->
               In i (rows (c / ntime) (c mod ntime)) /\ bl_inv i = c / ntime).
    { intros i c Hi E Hc. destruct (S1 i Hi) as [b [J1 [J2 [J3 [J4 _]]]]].
      rewrite J4 in E. injection E as <-. destruct (Hcellk (bl_inv i) b J2) as [C1 C2].
      rewrite C1, C2. split; [apply Hrows; auto|reflexivity]. }
    assert (Hrow_map : forall c k i, nth_error L k = Some c -> c < nbl * ntime ->
               In i (rows (c / ntime) (c mod ntime)) -> i < n /\ fst s i = k).
    { intros c k i E Hc Hin. destruct (Hdiv c Hc) as [D1 [D2 D3]].
      apply Hrows in Hin; [|exact D2]. destruct Hin as [A1 [A2 A3]].
      split; [exact A1|]. destruct (S1 i A1) as [b [J1 [J2 [J3 [J4 _]]]]].
      rewrite A2 in J1. rewrite A3 in J1. injection J1 as <-.
      assert (Ec : bl_inv i * ntime + c mod ntime = c).
      { rewrite A2. rewrite (Nat.div_mod c ntime) at 3 by assumption. lia. }
      rewrite Ec in J4.
      assert (nth_error L (fst s i) = nth_error L k) by congruence.
      apply (NoDup_nth_error L) in H; auto. apply nth_error_Some. congruence. }
    assert (Hnth : forall k c, nth_error L k = Some c -> nth k L 0 = c).
    { intros k c E. now apply nth_error_nth. }
    constructor; cbn [rm_map rm_out_rows rm_time rm_interval rm_flag_row].
    - intros i Hi. destruct (S1 i Hi) as [b [_ [_ [J3 _]]]]. exact J3.
    - intros k Hk. destruct (Hpos k Hk) as [c [P1 [P2 P3]]].
      destruct (Hdiv c P2) as [D1 [D2 D3]].
      pose proof (Hvalid_time c P2) as V. rewrite P3 in V.
      destruct V as [V1 [V2 [V3 [V4 V5]]]].
      exists (rows (c / ntime) (c mod ntime)).
      split; [exact V4|]. split; [apply Hrows_sorted|]. split; [|split; [|split]].
      + intros i. split.
        * intros Hin. exact (Hrow_map c k i P1 P2 Hin).
        * intros [Hi Em]. rewrite <- Em in P1. now apply Hmap_eq.
      + rewrite (Hnth k c P1). exact V2.
      + rewrite (Hnth k c P1). exact V3.
      + intros fr Hfr.
        destruct (rows (c / ntime) (c mod ntime)) as [|i0 l0] eqn:El; [congruence|].
        assert (Hi0 : In i0 (rows (c / ntime) (c mod ntime))) by (rewrite El; now left).
        destruct (Hrow_map c k i0 P1 P2 Hi0) as [Hi0n Hm0].
        destruct (S1 i0 Hi0n) as [b [J1 [J2 [J3 [J4 J5]]]]].
        destruct (J5 fr Hfr) as [ofr [K1 K2]]. exists ofr. split; [exact K1|].
        rewrite Hm0 in J4. rewrite P1 in J4. injection J4 as ->.
        destruct (Hcellk (bl_inv i0) b J2) as [C1 C2]. rewrite C1, C2 in V5.
        rewrite Hm0 in K2. rewrite K2, V5. unfold nflag.
        rewrite <- El in *. clear El l0 V2 V3 V4 V5 Hi0 K2 V1.
        generalize (rows ((bl_inv i0 * ntime + b) / ntime) ((bl_inv i0 * ntime + b) mod ntime)) as l.
        intros l. rewrite Hfr.
        assert (Hle : forall l', length (filter (is_flagged (Some fr)) l') <= length l').
        { induction l' as [|y l' IHl]; simpl; [lia|]. destruct (negb (fr y =? 0)%Z); simpl; lia. }
        destruct (Nat.eqb_spec (length l) (length (filter (is_flagged (Some fr)) l))) as [E|E].
        * left. split; [reflexivity|]. induction l as [|x l IH]; intros i Hin; [contradiction|].
          specialize (Hle l). cbn [filter length] in E.
          destruct (is_flagged (Some fr) x) eqn:Ex; cbn [length] in E; [|lia].
          destruct Hin as [->|Hin]; [|apply IH; auto; lia].
          intros Hz. simpl in Ex. rewrite Hz in Ex. discriminate.
        * right. split; [reflexivity|]. induction l as [|x l IH]; [contradiction|].
          cbn [filter length] in E.
          destruct (is_flagged (Some fr) x) eqn:Ex; cbn [length] in E.
          -- destruct IH as [i [A1 A2]]; [lia|]. exists i. split; [now right|exact A2].
          -- exists x. split; [now left|]. simpl in Ex. apply negb_false_iff in Ex. now apply Z.eqb_eq.
    - intros Hn. now apply S2.
    - intros i j Hi Hj E. destruct (S1 i Hi) as [b [J1 [J2 [J3 [J4 _]]]]].
      assert (Hc : bl_inv i * ntime + b < nbl * ntime) by (apply LI; eapply nth_error_In; eauto).
      apply Hbl_eq; auto. destruct (Hmap_eq i _ Hi J4 Hc) as [_ X].
      rewrite E in J4. destruct (Hmap_eq j _ Hj J4 Hc) as [_ Y]. congruence.
    - intros i m j Hi Hm Hj SB1 SB2 O1 O2 E.
      apply Hbl_eq in SB1; auto. apply Hbl_eq in SB2; auto.
      destruct (S1 i Hi) as [b [J1 [J2 [J3 [J4 _]]]]].
      destruct (S1 j Hj) as [b' [J1' [J2' [J3' [J4' _]]]]].
      destruct (S1 m Hm) as [bm [M1 [M2 [M3 [M4 _]]]]].
      rewrite E, J4' in J4. injection J4 as J4.
      assert (b = b') by (rewrite SB1, SB2 in J4; lia). subst b'.
      pose proof (L2 _ (Hbl_lt i Hi)) as X.
      rewrite <- SB1 in M1, SB2. rewrite <- SB2 in J1'.
      assert (Tim : time_inv i <= time_inv m).
      { destruct (le_lt_dec (time_inv i) (time_inv m)); [assumption|].
        apply Ht_ord in l; auto. congruence. }
      assert (Tmj : time_inv m <= time_inv j).
      { destruct (le_lt_dec (time_inv m) (time_inv j)); [assumption|].
        apply Ht_ord in l; auto. congruence. }
      pose proof (bf_mono _ _ _ _ _ _ _ _ _ _ _ _ _ X _ _ _ _ Tim J1 M1) as Q1.
      pose proof (bf_mono _ _ _ _ _ _ _ _ _ _ _ _ _ X _ _ _ _ Tmj M1 J1') as Q2.
      assert (bm = b) by lia. subst bm.
      assert (EE : nth_error L (fst s m) = nth_error L (fst s i)).
      { rewrite M4. rewrite E, J4'. f_equal. rewrite <- SB1. rewrite J4. reflexivity. }
      apply (NoDup_nth_error L) in EE; auto. apply nth_error_Some. congruence.
    - intros k1 k2 Hlt Hk2. destruct (Hpos k1 ltac:(lia)) as [c1 [P1 _]].
      destruct (Hpos k2 Hk2) as [c2 [P2 _]].
      rewrite (Hnth _ _ P1), (Hnth _ _ P2).
      assert (B : before (ltb F) flat_time c1 c2).
      { clear -LS P1 P2 Hlt. revert k1 k2 P1 P2 Hlt. induction L as [|x l IH]; intros k1 k2 P1 P2 Hlt.
        - destruct k1; discriminate.
        - inversion LS as [|? ? LS' HF]; subst. destruct k1, k2; simpl in *; try lia.
          + injection P1 as <-. rewrite Forall_forall in HF. apply HF. eapply nth_error_In; eauto.
          + eapply IH; eauto. lia. }
      destruct B as [B|[B _]]; [now apply ord_asym|]. unfold flat_time in B. rewrite B. apply (ord_irrefl _ OF).
    - intros i j Hi Hj Hlt Et. destruct (S1 i Hi) as [b [J1 [J2 [J3 [J4 _]]]]].
      destruct (S1 j Hj) as [b' [J1' [J2' [J3' [J4' _]]]]].
      rewrite (Hnth _ _ J4), (Hnth _ _ J4') in Et.
      assert (B : before (ltb F) flat_time (bl_inv i * ntime + b) (bl_inv j * ntime + b')).
      { revert J4 J4' Hlt. generalize (fst s i) (fst s j) (bl_inv i * ntime + b) (bl_inv j * ntime + b').
        clear -LS. induction L as [|x l IH]; intros k1 k2 c1 c2 P1 P2 Hlt.
        - destruct k1; discriminate.
        - inversion LS as [|? ? LS' HF]; subst. destruct k1, k2; simpl in *; try lia.
          + injection P1 as <-. rewrite Forall_forall in HF. apply HF. eapply nth_error_In; eauto.
          + eapply IH; eauto. lia. }
      destruct B as [B|[_ B]]; [unfold flat_time in B; rewrite Et, (ord_irrefl _ OF) in B; discriminate|].
      destruct (lt_eq_lt_dec (bl_inv i) (bl_inv j)) as [[X|X]|X].
      + left. now apply Hbl_ord.
      + right. split; [now apply Hbl_eq|]. apply Ht_ord; auto.
        destruct (lt_dec (time_inv i) (time_inv j)); [assumption|].
        pose proof (L2 _ (Hbl_lt i Hi)) as Y. rewrite <- X in J1'.
        pose proof (bf_mono _ _ _ _ _ _ _ _ _ _ _ _ _ Y _ _ _ _ (proj1 (Nat.nlt_ge _ _) n0) J1' J1).
        rewrite X in B. lia.
      + exfalso. nia.
    - intros r0 r Hr [R1 [R2 R3]] Hne.
      apply Hbl_eq in R2; auto.
      assert (Hlt : time_inv r0 < time_inv r).
      { destruct (lt_eq_lt_dec (time_inv r0) (time_inv r)) as [[X|X]|X]; [exact X| |].
        - exfalso. apply Hne. apply Hdup; auto.
        - exfalso. apply Ht_ord in X; auto. rewrite R3 in X; auto; [discriminate|]. now split. }
      destruct (S1 r Hr) as [b [J1 [J2 [J3 [J4 _]]]]].
      pose proof (L2 _ (Hbl_lt r Hr)) as X.
      assert (FP : first_present rl (bl_inv r) (time_inv r0) r0).
      { split; [apply Hrl; auto|]. intros t' Ht'.
        destruct (rl (bl_inv r) t') as [q|] eqn:Eq; [|reflexivity]. exfalso.
        apply Hrl in Eq. destruct Eq as [Q1 [Q2 Q3]]. subst t'.
        apply Ht_ord in Ht'; auto. rewrite R3 in Ht'; auto; [discriminate|]. now apply Hbl_eq. }
      rewrite <- (bf_open _ _ _ _ _ _ _ _ _ _ _ _ _ X (time_inv r0) r0 (time_inv r) r b Hlt
                          (Ht_lt r Hr) FP (proj2 (Hrl _ _ _) (conj Hr (conj eq_refl eq_refl))) J1).
      split.
      + intros [p [Hp [Em Hlp]]]. exists (time_inv p). split; [now apply Ht_ord|].
        destruct (S1 p Hp) as [b' [J1' [J2' [J3' [J4' _]]]]].
        rewrite Em, J4 in J4'. injection J4' as J4'.
        assert (Eb : bl_inv p = bl_inv r /\ b' = b).
        { destruct (Hcellk (bl_inv r) b J2) as [C1 C2]. destruct (Hcellk (bl_inv p) b' J2') as [C3 C4].
          rewrite J4' in C1, C2. split; congruence. }
        destruct Eb as [Eb1 Eb2]. rewrite Eb1, Eb2 in J1'. exact J1'.
      + intros [t'' [A1 A2]].
        pose proof (bf_tlt _ _ _ _ _ _ _ _ _ _ _ _ _ X _ _ A2) as At.
        destruct (rl (bl_inv r) t'') as [p|] eqn:Ep.
        * apply Hrl in Ep. destruct Ep as [P1 [P2 P3]]. exists p. split; [exact P1|]. split.
          -- destruct (S1 p P1) as [b' [J1' [J2' [J3' [J4' _]]]]].
             rewrite P2, P3, A2 in J1'. injection J1' as <-.
             assert (EE : nth_error L (fst s p) = nth_error L (fst s r)) by (rewrite J4, J4', P2; reflexivity).
             apply (NoDup_nth_error L) in EE; auto. apply nth_error_Some. congruence.
          -- apply Ht_ord; auto. lia.
        * apply (bf_some _ _ _ _ _ _ _ _ _ _ _ _ _ X) in Ep; [|exact At]. congruence.
  Qed.
End Main.
