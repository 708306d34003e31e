(* Proofs about the row mapper model. *)
From Coq Require Import Sorting.Sorted Sorting.Permutation.
From Verif Require Import Prelude PreludeFacts NumpyModel AvgModel AvgSpec SortFacts.

(* ---------- inverse index of a strictly sorted unique list ---------- *)
Section Inverse.
  Context {A : Type} (lt : A -> A -> bool) (O : order lt).

  Lemma strict_nth us : StronglySorted (fun x y => lt x y = true) us ->
    forall a b x y, nth_error us a = Some x -> nth_error us b = Some y ->
               a < b -> lt x y = true.
  Proof.
    induction us as [|u us IH]; intros HS a b x y Ha Hb Hab.
    - destruct a; discriminate.
    - inversion HS as [|? ? HS' HF]; subst. destruct a, b; simpl in *; try lia.
      + injection Ha as <-. rewrite Forall_forall in HF. apply HF.
        eapply nth_error_In; eauto.
      + eapply IH; eauto. lia.
  Qed.

  Lemma strict_inj us : StronglySorted (fun x y => lt x y = true) us ->
    forall a b x, nth_error us a = Some x -> nth_error us b = Some x -> a = b.
  Proof.
    intros HS a b x Ha Hb.
    destruct (lt_eq_lt_dec a b) as [[H|H]|H]; [|exact H|].
    - pose proof (strict_nth us HS a b x x Ha Hb H) as E.
      rewrite (ord_irrefl _ O) in E. discriminate.
    - pose proof (strict_nth us HS b a x x Hb Ha H) as E.
      rewrite (ord_irrefl _ O) in E. discriminate.
  Qed.
End Inverse.

(* ---------- stage 1: row_lookup ---------- *)
Definition dup_free (n : nat) (bl_inv time_inv : arr nat) : Prop :=
  forall i j, i < n -> j < n -> bl_inv i = bl_inv j -> time_inv i = time_inv j -> i = j.

Definition rl_ok (m : nat) (bl_inv time_inv : arr nat) (rl : arr2 (option nat)) : Prop :=
  forall b t r, rl b t = Some r <-> r < m /\ bl_inv r = b /\ time_inv r = t.

Lemma row_lookup_ok n bl_inv time_inv :
  dup_free n bl_inv time_inv ->
  exists rl, row_lookup_loop n bl_inv time_inv = Ok rl /\ rl_ok n bl_inv time_inv rl.
Proof.
  intros HD. unfold row_lookup_loop.
  apply (forM_inv (fun m rl => rl_ok m bl_inv time_inv rl)).
  - intros b t r. split; [discriminate|lia].
  - intros k rl Hk HI.
    destruct (rl (bl_inv k) (time_inv k)) as [r|] eqn:E.
    + apply HI in E. destruct E as [E1 [E2 E3]].
      assert (r = k) by (apply HD; auto; lia). lia.
    + eexists. split; [reflexivity|]. intros b t r. unfold upd2.
      destruct (Nat.eqb_spec b (bl_inv k)), (Nat.eqb_spec t (time_inv k)); simpl; subst.
      * split.
        -- intros H. injection H as <-. auto.
        -- intros [H1 [H2 H3]]. f_equal.
           destruct (Nat.eq_dec r k) as [->|Hne]; [reflexivity|].
           assert (rl (bl_inv k) (time_inv k) = Some r) by (apply HI; repeat split; auto; lia).
           congruence.
      * rewrite (HI _ _ r). split; [intuition lia|]. intros [H1 [H2 H3]].
        repeat split; auto. destruct (Nat.eq_dec r k) as [->|Hne]; [congruence|lia].
      * rewrite (HI _ _ r). split; [intuition lia|]. intros [H1 [H2 H3]].
        repeat split; auto. destruct (Nat.eq_dec r k) as [->|Hne]; [congruence|lia].
      * rewrite (HI _ _ r). split; [intuition lia|]. intros [H1 [H2 H3]].
        repeat split; auto. destruct (Nat.eq_dec r k) as [->|Hne]; [congruence|lia].
Qed.

Lemma row_lookup_dup n bl_inv time_inv :
  forall i j, i < j -> j < n -> bl_inv i = bl_inv j -> time_inv i = time_inv j ->
  row_lookup_loop n bl_inv time_inv = Raise ValueError.
Proof.
  intros i j Hij Hj Eb Et. unfold row_lookup_loop.
  set (body := fun r rl => _).
  assert (Hex : forall m, (exists rl, forM m body (fun _ _ => None) = Ok rl /\
                        rl_ok m bl_inv time_inv rl /\ (j < m -> False))
                   \/ forM m body (fun _ _ => None) = Raise ValueError).
  { induction m as [|m IH].
    - left. exists (fun _ _ => None). split; [reflexivity|]. split; [|lia].
      intros b t r. split; [discriminate|lia].
    - destruct IH as [[rl [E [HI HF]]]|E].
      + simpl. rewrite E. simpl. unfold body.
        destruct (rl (bl_inv m) (time_inv m)) as [r|] eqn:Er; [now right|].
        left. eexists. split; [reflexivity|]. split.
        * intros b t r. unfold upd2.
          destruct (Nat.eqb_spec b (bl_inv m)), (Nat.eqb_spec t (time_inv m)); simpl; subst.
          -- split.
             ++ intros H. injection H as <-. auto.
             ++ intros [H1 [H2 H3]]. f_equal.
                destruct (Nat.eq_dec r m) as [->|Hne]; [reflexivity|].
                assert (rl (bl_inv m) (time_inv m) = Some r) by (apply HI; repeat split; auto; lia).
                congruence.
          -- rewrite (HI _ _ r). split; [intuition lia|]. intros [H1 [H2 H3]].
             repeat split; auto. destruct (Nat.eq_dec r m) as [->|Hne]; [congruence|lia].
          -- rewrite (HI _ _ r). split; [intuition lia|]. intros [H1 [H2 H3]].
             repeat split; auto. destruct (Nat.eq_dec r m) as [->|Hne]; [congruence|lia].
          -- rewrite (HI _ _ r). split; [intuition lia|]. intros [H1 [H2 H3]].
             repeat split; auto. destruct (Nat.eq_dec r m) as [->|Hne]; [congruence|lia].
        * intros Hjm. destruct (Nat.eq_dec j m) as [->|Hne]; [|lia].
          assert (rl (bl_inv m) (time_inv m) = Some i) by (apply HI; repeat split; auto; lia).
          congruence.
      + right. simpl. rewrite E. reflexivity. }
  destruct (Hex n) as [[rl [_ [_ HF]]]|E]; [exfalso; auto|exact E].
Qed.

(* ---------- stage 2: the time loop of one baseline ---------- *)
Definition binrows (pres bk : nat -> option nat) (t b : nat) : list nat :=
  flat_map (fun t' => match pres t', bk t' with
                      | Some r, Some b' => if Nat.eqb b' b then [r] else []
                      | _, _ => []
                      end) (seq 0 t).

Lemma binrows_S pres bk t b :
  binrows pres bk (S t) b =
  binrows pres bk t b ++ match pres t, bk t with
                         | Some r, Some b' => if Nat.eqb b' b then [r] else []
                         | _, _ => []
                         end.
Proof.
  unfold binrows. rewrite seq_S, flat_map_app. simpl. now rewrite app_nil_r.
Qed.

Lemma binrows_ext pres bk bk' t b :
  (forall t', t' < t -> bk t' = bk' t') -> binrows pres bk t b = binrows pres bk' t b.
Proof.
  intros H. unfold binrows. rewrite !flat_map_concat_map. f_equal.
  apply map_ext_in. intros t' Ht. apply in_seq in Ht. rewrite H by lia. reflexivity.
Qed.

Lemma binrows_nil pres bk t b :
  (forall t', t' < t -> bk t' = Some b -> False) -> binrows pres bk t b = [].
Proof.
  intros H. induction t as [|t IH]; [reflexivity|].
  rewrite binrows_S, IH by (intros t' Ht E; apply (H t'); [lia|exact E]). simpl.
  destruct (pres t); [|reflexivity]. destruct (bk t) as [b'|] eqn:E; [|reflexivity].
  destruct (Nat.eqb_spec b' b); [|reflexivity]. subst. exfalso. apply (H t); auto.
Qed.

Lemma binrows_in pres bk t b r :
  In r (binrows pres bk t b) <-> exists t', t' < t /\ pres t' = Some r /\ bk t' = Some b.
Proof.
  unfold binrows. rewrite in_flat_map. split.
  - intros [t' [H1 H2]]. apply in_seq in H1. exists t'. split; [lia|].
    destruct (pres t'), (bk t') as [b'|]; try contradiction.
    destruct (Nat.eqb_spec b' b); [|contradiction]. subst.
    destruct H2 as [->|[]]. auto.
  - intros [t' [H1 [H2 H3]]]. exists t'. split; [apply in_seq; lia|].
    rewrite H2, H3, Nat.eqb_refl. now left.
Qed.

Section TimeLoop.
  Context (F : arith).
  Notation T := (num F).
  Context (time interval : arr T) (flag_row : option (arr Z)) (secs : T).
  Context (rl : arr2 (option nat)) (bl : nat).

  Let pres := rl bl.
  Definition low (r : nat) : T := sub F (time r) (half F (interval r)).
  Definition high (r : nat) : T := add F (time r) (half F (interval r)).
  Definition tsum (l : list nat) : T := fold_left (add F) (map time l) (zero F).
  Definition isum (l : list nat) : T := fold_left (add F) (map interval l) (zero F).
  Definition nflag (l : list nat) : nat := length (filter (is_flagged flag_row) l).

  Definition first_present (t0 r0 : nat) : Prop :=
    pres t0 = Some r0 /\ forall t', t' < t0 -> pres t' = None.

  Record tinv (s0 : mstate F) (t : nat) (s : mstate F) : Prop := {
    ti_frame : forall b x, b <> bl ->
       bin_lookup F s b x = bin_lookup F s0 b x /\
       time_lookup F s b x = time_lookup F s0 b x /\
       interval_lookup F s b x = interval_lookup F s0 b x /\
       bin_flagged F s b x = bin_flagged F s0 b x;
    ti_some : forall t', t' < t -> (bin_lookup F s bl t' = None <-> pres t' = None);
    ti_none : forall t', t <= t' -> bin_lookup F s bl t' = None;
    ti_le : forall t' b, bin_lookup F s bl t' = Some b -> b <= tbin F s;
    ti_mono : forall t1 t2 b1 b2, t1 <= t2 -> bin_lookup F s bl t1 = Some b1 ->
                 bin_lookup F s bl t2 = Some b2 -> b1 <= b2;
    ti_empty : bin_count F s = 0 -> tbin F s = 0 /\ forall t', t' < t -> pres t' = None;
    ti_nonempty : bin_count F s <> 0 ->
                  tbin F s < t /\
                  forall b, b <= tbin F s -> binrows pres (bin_lookup F s bl) t b <> [];
    ti_count : bin_count F s = length (binrows pres (bin_lookup F s bl) t (tbin F s));
    ti_fcount : bin_flag_count F s = nflag (binrows pres (bin_lookup F s bl) t (tbin F s));
    ti_tcur : time_lookup F s bl (tbin F s) = tsum (binrows pres (bin_lookup F s bl) t (tbin F s));
    ti_tprev : forall b, b < tbin F s -> time_lookup F s bl b =
        divn F (tsum (binrows pres (bin_lookup F s bl) t b))
               (length (binrows pres (bin_lookup F s bl) t b));
    ti_tnext : forall b, tbin F s < b -> time_lookup F s bl b = zero F;
    ti_int : forall b, interval_lookup F s bl b = isum (binrows pres (bin_lookup F s bl) t b);
    ti_flag : forall b, b < tbin F s -> bin_flagged F s bl b =
        Nat.eqb (length (binrows pres (bin_lookup F s bl) t b))
                (nflag (binrows pres (bin_lookup F s bl) t b));
    ti_low : forall t0 r0, t0 < t -> first_present t0 r0 -> bin_low F s = low r0;
    ti_open : forall t0 r0 t' r b, t0 < t' -> t' < t -> first_present t0 r0 ->
        pres t' = Some r -> bin_lookup F s bl t' = Some b ->
        ((exists t'', t'' < t' /\ bin_lookup F s bl t'' = Some b) <->
         ltb F secs (sub F (high r) (low r0)) = false)
  }.

  Definition tinit (s0 : mstate F) : Prop :=
    tbin F s0 = 0 /\ bin_count F s0 = 0 /\ bin_flag_count F s0 = 0 /\
    (forall t', bin_lookup F s0 bl t' = None) /\
    (forall b, time_lookup F s0 bl b = zero F) /\
    (forall b, interval_lookup F s0 bl b = zero F).

  Lemma tinv_init s0 : tinit s0 -> tinv s0 0 s0.
  Proof.
    intros (H1 & H2 & H3 & H4 & H5 & H6).
    constructor; intros; rewrite ?H1, ?H2, ?H3 in *; try lia; try reflexivity; auto.
    all: try (rewrite H4 in *; discriminate).
    all: try (rewrite ?H5, ?H6; reflexivity).
    split; [reflexivity|intros; lia].
  Qed.

  Lemma tsum_snoc l r : tsum (l ++ [r]) = add F (tsum l) (time r).
  Proof. unfold tsum. rewrite map_app, fold_left_app. reflexivity. Qed.
  Lemma isum_snoc l r : isum (l ++ [r]) = add F (isum l) (interval r).
  Proof. unfold isum. rewrite map_app, fold_left_app. reflexivity. Qed.
  Lemma nflag_snoc l r : nflag (l ++ [r]) =
     if is_flagged flag_row r then S (nflag l) else nflag l.
  Proof.
    unfold nflag. rewrite filter_app, app_length. simpl.
    destruct (is_flagged flag_row r); simpl; lia.
  Qed.

  Lemma upd2_row {A} (f : arr2 A) x v a :
    upd2 f bl x v bl a = if Nat.eqb a x then v else f bl a.
  Proof. unfold upd2. rewrite Nat.eqb_refl. reflexivity. Qed.
  Lemma upd2_row_ne {A} (f : arr2 A) x v b a :
    b <> bl -> upd2 f bl x v b a = f b a.
  Proof. intros H. apply upd2_neq. now left. Qed.

  (* binrows after recording sample r at time t in bin tb *)
  Lemma binrows_record f t r tb b :
    pres t = Some r ->
    binrows pres (upd2 f bl t (Some tb) bl) (S t) b =
    binrows pres (f bl) t b ++ if Nat.eqb tb b then [r] else [].
  Proof.
    intros Hp. rewrite binrows_S, Hp, upd2_row, Nat.eqb_refl.
    rewrite (binrows_ext pres (upd2 f bl t (Some tb) bl) (f bl)); [reflexivity|].
    intros t' Ht. rewrite upd2_row. destruct (Nat.eqb_spec t' t); [lia|reflexivity].
  Qed.

  Lemma tinv_step s0 t s :
    tinv s0 t s ->
    tinv s0 (S t) (time_step F time interval flag_row secs rl bl t s).
  Proof.
    intros I. unfold time_step. change (rl bl t) with (pres t).
    destruct (pres t) as [r|] eqn:Hp.
    2:{ (* sample absent *)
      assert (Hn : bin_lookup F s bl t = None) by (apply (ti_none _ _ _ I); lia).
      assert (HB : forall b, binrows pres (bin_lookup F s bl) (S t) b =
                             binrows pres (bin_lookup F s bl) t b).
      { intros b. rewrite binrows_S, Hp. apply app_nil_r. }
      destruct I. constructor; intros; rewrite ?HB; auto.
      - destruct (Nat.eq_dec t' t) as [->|]; [tauto|apply ti_some0; lia].
      - apply ti_none0. lia.
      - exact (ti_le0 t' b H).
      - exact (ti_mono0 t1 t2 b1 b2 H H0 H1).
      - destruct (ti_empty0 H) as [E1 E2]. split; [exact E1|].
        intros t' Ht. destruct (Nat.eq_dec t' t) as [->|]; [exact Hp|apply E2; lia].
      - destruct (ti_nonempty0 H) as [E1 E2]. split; [lia|]. intros b Hb. rewrite HB. auto.
      - apply (ti_low0 t0 r0); auto. destruct (Nat.eq_dec t0 t) as [->|]; [|lia].
        destruct H0. congruence.
      - destruct (Nat.eq_dec t' t) as [->|]; [congruence|].
        apply (ti_open0 t0 r0 t' r b); auto. lia. }
    cbv zeta.
    assert (Hnt : bin_lookup F s bl t = None) by (apply (ti_none _ _ _ I); lia).
    destruct (Nat.eqb_spec (bin_count F s) 0) as [Hc|Hc].
    - (* first sample of the baseline *)
      destruct (ti_empty _ _ _ I Hc) as [Htb Hnone].
      assert (Hbk : forall t', bin_lookup F s bl t' = None).
      { intros t'. destruct (le_lt_dec t t'); [now apply (ti_none _ _ _ I)|].
        apply (ti_some _ _ _ I); auto. }
      assert (HB0 : forall b, binrows pres (bin_lookup F s bl) t b = []).
      { intros b. apply binrows_nil. intros t' _ E. rewrite Hbk in E. discriminate. }
      constructor; cbn [tbin bin_count bin_flag_count bin_low bin_lookup time_lookup
                         interval_lookup bin_flagged]; intros.
      + rewrite !upd2_row_ne by assumption. apply (ti_frame _ _ _ I). assumption.
      + rewrite upd2_row. destruct (Nat.eqb_spec t' t) as [->|]; [rewrite Hp; split; discriminate|].
        apply (ti_some _ _ _ I). lia.
      + rewrite upd2_row. destruct (Nat.eqb_spec t' t) as [->|]; [lia|]. apply Hbk.
      + rewrite upd2_row in H. destruct (Nat.eqb_spec t' t) as [->|].
        * injection H as <-. lia.
        * rewrite Hbk in H. discriminate.
      + rewrite upd2_row in *. rewrite !Hbk in *.
        destruct (Nat.eqb t1 t), (Nat.eqb t2 t); try discriminate.
        injection H0 as <-. injection H1 as <-. lia.
      + discriminate.
      + split; [lia|]. intros b Hb. rewrite (binrows_record _ _ r) by assumption.
        rewrite HB0. replace (Nat.eqb (tbin F s) b) with true by (symmetry; apply Nat.eqb_eq; lia).
        discriminate.
      + rewrite (binrows_record _ _ r) by assumption. rewrite HB0, Nat.eqb_refl, Hc. reflexivity.
      + rewrite (binrows_record _ _ r) by assumption. rewrite Nat.eqb_refl, nflag_snoc.
        now rewrite (ti_fcount _ _ _ I).
      + rewrite (binrows_record _ _ r) by assumption. rewrite Nat.eqb_refl, tsum_snoc.
        rewrite upd2_row, Nat.eqb_refl. now rewrite (ti_tcur _ _ _ I).
      + lia.
      + rewrite upd2_row. destruct (Nat.eqb_spec b (tbin F s)); [lia|].
        apply (ti_tnext _ _ _ I). exact H.
      + rewrite (binrows_record _ _ r) by assumption. rewrite upd2_row.
        destruct (Nat.eqb_spec b (tbin F s)) as [->|Hne].
        * rewrite Nat.eqb_refl, isum_snoc. now rewrite (ti_int _ _ _ I).
        * destruct (Nat.eqb_spec (tbin F s) b); [lia|]. rewrite app_nil_r. apply (ti_int _ _ _ I).
      + lia.
      + destruct H0 as [H0 H1].
        destruct (Nat.eq_dec t0 t) as [->|]; [|rewrite Hnone in H0 by lia; discriminate].
        assert (r0 = r) by congruence. subst. reflexivity.
      + destruct H1 as [H1 H5].
        destruct (Nat.eq_dec t' t) as [->|].
        * rewrite Hnone in H1 by lia. discriminate.
        * rewrite Hnone in H2 by lia. discriminate.
    - destruct (ti_nonempty _ _ _ I Hc) as [Htb Hne].
      (* there is a first sample, before t *)
      assert (Hex : exists t', t' < t /\ pres t' <> None).
      { specialize (Hne 0 (Nat.le_0_l _)).
        destruct (binrows pres (bin_lookup F s bl) t 0) as [|x l] eqn:E; [congruence|].
        assert (Hin : In x (binrows pres (bin_lookup F s bl) t 0)) by (rewrite E; now left).
        apply binrows_in in Hin. destruct Hin as [t' [A1 [A2 _]]]. exists t'.
        split; [exact A1|congruence]. }
      assert (Hfp : forall t0 r0, first_present t0 r0 -> t0 < t).
      { intros t0 r0 [A1 A2]. destruct Hex as [t' [B1 B2]].
        destruct (le_lt_dec t t0); [|assumption]. exfalso. apply B2. apply A2. lia. }
      destruct (ltb F secs (sub F (add F (time r) (half F (interval r))) (bin_low F s))) eqn:Hov.
      + (* overflow: start a new bin *)
        replace (Nat.ltb 0 (bin_count F s)) with true by (symmetry; apply Nat.ltb_lt; lia).
        assert (HBn : binrows pres (bin_lookup F s bl) t (S (tbin F s)) = []).
        { apply binrows_nil. intros t' _ E. apply (ti_le _ _ _ I) in E. lia. }
        constructor; cbn [tbin bin_count bin_flag_count bin_low bin_lookup time_lookup
                         interval_lookup bin_flagged]; intros.
        * rewrite !upd2_row_ne by assumption. apply (ti_frame _ _ _ I). assumption.
        * rewrite upd2_row. destruct (Nat.eqb_spec t' t) as [->|]; [rewrite Hp; split; discriminate|].
          apply (ti_some _ _ _ I). lia.
        * rewrite upd2_row. destruct (Nat.eqb_spec t' t) as [->|]; [lia|].
          apply (ti_none _ _ _ I). lia.
        * rewrite upd2_row in H. destruct (Nat.eqb_spec t' t) as [->|].
          -- injection H as <-. lia.
          -- apply (ti_le _ _ _ I) in H. lia.
        * rewrite upd2_row in *.
          destruct (Nat.eqb_spec t1 t), (Nat.eqb_spec t2 t); subst.
          -- injection H0 as <-. injection H1 as <-. lia.
          -- rewrite (ti_none _ _ _ I) in H1 by lia. discriminate.
          -- injection H1 as <-. apply (ti_le _ _ _ I) in H0. lia.
          -- exact (ti_mono _ _ _ I t1 t2 b1 b2 H H0 H1).
        * discriminate.
        * split; [lia|]. intros b Hb. rewrite (binrows_record _ _ r) by assumption.
          destruct (Nat.eqb_spec (S (tbin F s)) b).
          -- subst. rewrite HBn. discriminate.
          -- rewrite app_nil_r. apply Hne. lia.
        * rewrite (binrows_record _ _ r) by assumption. rewrite HBn, Nat.eqb_refl. reflexivity.
        * rewrite (binrows_record _ _ r) by assumption. rewrite Nat.eqb_refl, nflag_snoc, HBn.
          reflexivity.
        * rewrite (binrows_record _ _ r) by assumption. rewrite Nat.eqb_refl, tsum_snoc, HBn.
          rewrite upd2_row, Nat.eqb_refl. rewrite upd2_row.
          destruct (Nat.eqb_spec (S (tbin F s)) (tbin F s)); [lia|].
          rewrite (ti_tnext _ _ _ I) by lia. reflexivity.
        * rewrite (binrows_record _ _ r) by assumption.
          destruct (Nat.eqb_spec (S (tbin F s)) b); [lia|]. rewrite app_nil_r.
          rewrite !upd2_row. destruct (Nat.eqb_spec b (S (tbin F s))); [lia|].
          destruct (Nat.eqb_spec b (tbin F s)) as [->|].
          -- rewrite (ti_tcur _ _ _ I), (ti_count _ _ _ I). reflexivity.
          -- apply (ti_tprev _ _ _ I). lia.
        * rewrite !upd2_row. destruct (Nat.eqb_spec b (S (tbin F s))); [lia|].
          destruct (Nat.eqb_spec b (tbin F s)) as [->|]; [lia|].
          apply (ti_tnext _ _ _ I). lia.
        * rewrite (binrows_record _ _ r) by assumption. rewrite upd2_row.
          destruct (Nat.eqb_spec b (S (tbin F s))) as [->|Hnb].
          -- rewrite Nat.eqb_refl, isum_snoc. now rewrite (ti_int _ _ _ I).
          -- destruct (Nat.eqb_spec (S (tbin F s)) b); [lia|]. rewrite app_nil_r. apply (ti_int _ _ _ I).
        * rewrite (binrows_record _ _ r) by assumption.
          destruct (Nat.eqb_spec (S (tbin F s)) b); [lia|]. rewrite app_nil_r.
          rewrite upd2_row. destruct (Nat.eqb_spec b (tbin F s)) as [->|].
          -- rewrite (ti_count _ _ _ I), (ti_fcount _ _ _ I). reflexivity.
          -- apply (ti_flag _ _ _ I). lia.
        * apply (ti_low _ _ _ I t0); auto. eapply Hfp; eauto.
        * destruct (Nat.eq_dec t' t) as [->|Hnt'].
          -- assert (r1 = r \/ r = r1) by (left; congruence).
             rewrite upd2_row, Nat.eqb_refl in H3. injection H3 as <-.
             assert (Er : r1 = r) by congruence. rewrite Er. clear H4.
             assert (Hlo : bin_low F s = low r0) by (apply (ti_low _ _ _ I t0); auto).
             unfold high. rewrite <- Hlo, Hov. split; [|discriminate].
             intros [t'' [A1 A2]]. rewrite upd2_row in A2.
             destruct (Nat.eqb_spec t'' t); [lia|]. apply (ti_le _ _ _ I) in A2. lia.
          -- rewrite upd2_row in H3. destruct (Nat.eqb_spec t' t); [lia|].
             rewrite <- (ti_open _ _ _ I t0 r0 t' r1 b) by (auto; lia).
             split; intros [t'' [A1 A2]]; exists t''; (split; [exact A1|]);
               rewrite upd2_row in *; destruct (Nat.eqb_spec t'' t); try lia; assumption.
      + (* contribute to the current bin *)
        constructor; cbn [tbin bin_count bin_flag_count bin_low bin_lookup time_lookup
                         interval_lookup bin_flagged]; intros.
        * rewrite !upd2_row_ne by assumption. apply (ti_frame _ _ _ I). assumption.
        * rewrite upd2_row. destruct (Nat.eqb_spec t' t) as [->|]; [rewrite Hp; split; discriminate|].
          apply (ti_some _ _ _ I). lia.
        * rewrite upd2_row. destruct (Nat.eqb_spec t' t) as [->|]; [lia|].
          apply (ti_none _ _ _ I). lia.
        * rewrite upd2_row in H. destruct (Nat.eqb_spec t' t) as [->|].
          -- injection H as <-. lia.
          -- apply (ti_le _ _ _ I) in H. lia.
        * rewrite upd2_row in *.
          destruct (Nat.eqb_spec t1 t), (Nat.eqb_spec t2 t); subst.
          -- injection H0 as <-. injection H1 as <-. lia.
          -- rewrite (ti_none _ _ _ I) in H1 by lia. discriminate.
          -- injection H1 as <-. apply (ti_le _ _ _ I) in H0. lia.
          -- exact (ti_mono _ _ _ I t1 t2 b1 b2 H H0 H1).
        * discriminate.
        * split; [lia|]. intros b Hb. rewrite (binrows_record _ _ r) by assumption.
          intros E. apply app_eq_nil in E. destruct E as [E _]. revert E. apply Hne. exact Hb.
        * rewrite (binrows_record _ _ r) by assumption. rewrite Nat.eqb_refl, app_length.
          rewrite (ti_count _ _ _ I). simpl. lia.
        * rewrite (binrows_record _ _ r) by assumption. rewrite Nat.eqb_refl, nflag_snoc.
          rewrite (ti_fcount _ _ _ I). reflexivity.
        * rewrite (binrows_record _ _ r) by assumption. rewrite Nat.eqb_refl, tsum_snoc.
          rewrite upd2_row, Nat.eqb_refl. now rewrite (ti_tcur _ _ _ I).
        * rewrite (binrows_record _ _ r) by assumption.
          destruct (Nat.eqb_spec (tbin F s) b); [lia|]. rewrite app_nil_r.
          rewrite !upd2_row. destruct (Nat.eqb_spec b (tbin F s)); [lia|].
          apply (ti_tprev _ _ _ I). lia.
        * rewrite !upd2_row. destruct (Nat.eqb_spec b (tbin F s)); [lia|].
          apply (ti_tnext _ _ _ I). lia.
        * rewrite (binrows_record _ _ r) by assumption. rewrite upd2_row.
          destruct (Nat.eqb_spec b (tbin F s)) as [->|Hnb].
          -- rewrite Nat.eqb_refl, isum_snoc. now rewrite (ti_int _ _ _ I).
          -- destruct (Nat.eqb_spec (tbin F s) b); [lia|]. rewrite app_nil_r. apply (ti_int _ _ _ I).
        * rewrite (binrows_record _ _ r) by assumption.
          destruct (Nat.eqb_spec (tbin F s) b); [lia|]. rewrite app_nil_r.
          apply (ti_flag _ _ _ I). lia.
        * apply (ti_low _ _ _ I t0); auto. eapply Hfp; eauto.
        * destruct (Nat.eq_dec t' t) as [->|Hnt'].
          -- rewrite upd2_row, Nat.eqb_refl in H3. injection H3 as <-.
             assert (Er : r1 = r) by congruence. rewrite Er.
             assert (Hlo : bin_low F s = low r0) by (apply (ti_low _ _ _ I t0); auto).
             unfold high. rewrite <- Hlo, Hov. split; [reflexivity|]. intros _.
             specialize (Hne (tbin F s) (le_n _)).
             destruct (binrows pres (bin_lookup F s bl) t (tbin F s)) as [|x l] eqn:E; [congruence|].
             assert (Hin : In x (binrows pres (bin_lookup F s bl) t (tbin F s))) by (rewrite E; now left).
             apply binrows_in in Hin. destruct Hin as [t' [A1 [A2 A3]]].
             exists t'. split; [exact A1|]. rewrite upd2_row.
             destruct (Nat.eqb_spec t' t); [lia|exact A3].
          -- rewrite upd2_row in H3. destruct (Nat.eqb_spec t' t); [lia|].
             rewrite <- (ti_open _ _ _ I t0 r0 t' r1 b) by (auto; lia).
             split; intros [t'' [A1 A2]]; exists t''; (split; [exact A1|]);
               rewrite upd2_row in *; destruct (Nat.eqb_spec t'' t); try lia; assumption.
  Qed.

  Lemma tinv_loop s0 n :
    tinit s0 -> tinv s0 n (for_ n (time_step F time interval flag_row secs rl bl) s0).
  Proof.
    intros H. apply (for_inv (tinv s0)); [now apply tinv_init|].
    intros k s' _. apply tinv_step.
  Qed.
End TimeLoop.
