(* Proofs about the row mapper model, part 2: baseline loop, sorting, map. *)
From Coq Require Import Sorting.Sorted Sorting.Permutation.
From Verif Require Import Prelude PreludeFacts NumpyModel AvgModel AvgSpec SortFacts AvgProofs.

Section BlLoop.
  Context (F : arith).
  Notation T := (num F).
  Context (time interval : arr T) (flag_row : option (arr Z)) (secs : T).
  Context (rl : arr2 (option nat)) (ntime : nat).

  Notation low := (low F time interval).
  Notation high := (high F time interval).
  Notation tsum := (tsum F time).
  Notation isum := (isum F interval).
  Notation nflag := (nflag flag_row).
  Notation first_present := (first_present rl).

  Record blfin (bl nb : nat) (bk : nat -> option nat) (tm iv : nat -> T)
         (bf : nat -> bool) : Prop := {
    bf_some : forall t, t < ntime -> (bk t = None <-> rl bl t = None);
    bf_tlt : forall t b, bk t = Some b -> t < ntime;
    bf_lt : forall t b, bk t = Some b -> b < nb;
    bf_mono : forall t1 t2 b1 b2, t1 <= t2 -> bk t1 = Some b1 -> bk t2 = Some b2 -> b1 <= b2;
    bf_nb : nb <= ntime;
    bf_nonempty : forall b, b < nb -> binrows (rl bl) bk ntime b <> [];
    bf_time : forall b, b < nb -> tm b = divn F (tsum (binrows (rl bl) bk ntime b))
                                            (length (binrows (rl bl) bk ntime b));
    bf_sent : forall b, nb <= b -> b < ntime -> tm b = sentinel F;
    bf_int : forall b, b < nb -> iv b = isum (binrows (rl bl) bk ntime b);
    bf_flag : forall b, b < nb -> bf b =
        Nat.eqb (length (binrows (rl bl) bk ntime b)) (nflag (binrows (rl bl) bk ntime b));
    bf_open : forall t0 r0 t' r b, t0 < t' -> t' < ntime -> first_present bl t0 r0 ->
        rl bl t' = Some r -> bk t' = Some b ->
        ((exists t'', t'' < t' /\ bk t'' = Some b) <->
         ltb F secs (sub F (high r) (low r0)) = false)
  }.

  Lemma fill_sentinel_spec bl tb tl bf tl' bf' :
    fill_sentinel F ntime bl tb (tl, bf) = (tl', bf') ->
    (forall b x, tl' b x = if Nat.eqb b bl && Nat.leb tb x && Nat.ltb x ntime
                           then sentinel F else tl b x) /\
    (forall b x, bf' b x = if Nat.eqb b bl && Nat.leb tb x && Nat.ltb x ntime
                           then false else bf b x).
  Proof.
    unfold fill_sentinel. intros E.
    assert (H : forall m, m <= ntime - tb ->
      let s := for_ m (fun k s => (upd2 (fst s) bl (tb + k) (sentinel F),
                                   upd2 (snd s) bl (tb + k) false)) (tl, bf) in
      (forall b x, fst s b x = if Nat.eqb b bl && Nat.leb tb x && Nat.ltb x (tb + m)
                           then sentinel F else tl b x) /\
      (forall b x, snd s b x = if Nat.eqb b bl && Nat.leb tb x && Nat.ltb x (tb + m)
                           then false else bf b x)).
    { induction m as [|m IH]; intros Hm; cbn [for_].
      - cbv zeta. cbn [fst snd]. split; intros b x; destruct (Nat.eqb_spec b bl), (Nat.leb_spec tb x),
          (Nat.ltb_spec x (tb + 0)); simpl; try reflexivity; try lia.
      - destruct (IH ltac:(lia)) as [I1 I2]. cbv zeta. cbn [fst snd].
        split; intros b x; unfold upd2; rewrite ?I1, ?I2;
          destruct (Nat.eqb_spec b bl), (Nat.leb_spec tb x),
          (Nat.ltb_spec x (tb + m)), (Nat.ltb_spec x (tb + S m)), (Nat.eqb_spec x (tb + m));
          simpl; try reflexivity; lia. }
    specialize (H (ntime - tb) (le_n _)). cbv zeta in H.
    rewrite E in H. cbn [fst snd] in H. destruct H as [H1 H2].
    split; intros b x; rewrite ?H1, ?H2;
    destruct (Nat.eqb_spec b bl), (Nat.leb_spec tb x),
          (Nat.ltb_spec x (tb + (ntime - tb))), (Nat.ltb_spec x ntime);
          simpl; try reflexivity; lia.
  Qed.

  Lemma bl_step_spec bl (a a' : acc F) :
    (forall t, a_bin_lookup F a bl t = None) ->
    (forall b, a_time F a bl b = zero F) ->
    (forall b, a_int F a bl b = zero F) ->
    a' = bl_step F time interval flag_row secs ntime rl bl a ->
    exists nb,
      a_out_rows F a' = a_out_rows F a + nb /\
      blfin bl nb (a_bin_lookup F a' bl) (a_time F a' bl) (a_int F a' bl) (a_flagged F a' bl) /\
      forall b x, b <> bl ->
        a_bin_lookup F a' b x = a_bin_lookup F a b x /\
        a_time F a' b x = a_time F a b x /\
        a_int F a' b x = a_int F a b x /\
        a_flagged F a' b x = a_flagged F a b x.
  Proof.
    intros H1 H2 H3 E. unfold bl_step in E.
    set (s0 := {| tbin := 0 |}) in E.
    assert (Hinit : tinit F bl s0) by (repeat split; auto).
    pose proof (tinv_loop F time interval flag_row secs rl bl s0 ntime Hinit) as I.
    set (s := for_ ntime _ s0) in *.
    destruct (Nat.ltb_spec 0 (bin_count F s)) as [Hc|Hc].
    - destruct (fill_sentinel F ntime bl (S (tbin F s)) _) as [tl' bf'] eqn:Ef.
      apply fill_sentinel_spec in Ef. destruct Ef as [Ft Fb].
      exists (S (tbin F s)). subst a'. cbn [a_out_rows a_bin_lookup a_time a_int a_flagged].
      destruct (ti_nonempty _ _ _ _ _ _ _ _ _ _ I ltac:(lia)) as [Hlt Hne].
      split; [reflexivity|]. split.
      + constructor; intros.
        * eapply ti_some; eauto.
        * destruct (le_lt_dec ntime t); [|assumption].
          rewrite (ti_none _ _ _ _ _ _ _ _ _ _ I) in H by assumption. discriminate.
        * apply (ti_le _ _ _ _ _ _ _ _ _ _ I) in H. lia.
        * exact (ti_mono _ _ _ _ _ _ _ _ _ _ I t1 t2 b1 b2 H H0 H4).
        * lia.
        * apply Hne. lia.
        * rewrite Ft. rewrite Nat.eqb_refl.
          destruct (Nat.leb_spec (S (tbin F s)) b); [lia|]. simpl.
          rewrite upd2_row. destruct (Nat.eqb_spec b (tbin F s)) as [->|].
          -- rewrite (ti_tcur _ _ _ _ _ _ _ _ _ _ I), (ti_count _ _ _ _ _ _ _ _ _ _ I). reflexivity.
          -- apply (ti_tprev _ _ _ _ _ _ _ _ _ _ I). lia.
        * rewrite Ft, Nat.eqb_refl. destruct (Nat.leb_spec (S (tbin F s)) b); [|lia].
          destruct (Nat.ltb_spec b ntime); [reflexivity|lia].
        * apply (ti_int _ _ _ _ _ _ _ _ _ _ I).
        * rewrite Fb. rewrite Nat.eqb_refl.
          destruct (Nat.leb_spec (S (tbin F s)) b); [lia|]. simpl.
          rewrite upd2_row. destruct (Nat.eqb_spec b (tbin F s)) as [->|].
          -- rewrite (ti_fcount _ _ _ _ _ _ _ _ _ _ I), (ti_count _ _ _ _ _ _ _ _ _ _ I). reflexivity.
          -- apply (ti_flag _ _ _ _ _ _ _ _ _ _ I). lia.
        * apply (ti_open _ _ _ _ _ _ _ _ _ _ I t0 r0 t' r b); auto.
      + intros b x Hb. rewrite Ft, Fb.
        destruct (Nat.eqb_spec b bl); [contradiction|]. simpl.
        rewrite !upd2_row_ne by assumption.
        apply (ti_frame _ _ _ _ _ _ _ _ _ _ I). assumption.
    - destruct (fill_sentinel F ntime bl (tbin F s) _) as [tl' bf'] eqn:Ef.
      apply fill_sentinel_spec in Ef. destruct Ef as [Ft Fb].
      destruct (ti_empty _ _ _ _ _ _ _ _ _ _ I ltac:(lia)) as [Htb Hnone].
      exists (tbin F s). subst a'. cbn [a_out_rows a_bin_lookup a_time a_int a_flagged].
      assert (Hbk : forall t', bin_lookup F s bl t' = None).
      { intros t'. destruct (le_lt_dec ntime t'); [now apply (ti_none _ _ _ _ _ _ _ _ _ _ I)|].
        apply (ti_some _ _ _ _ _ _ _ _ _ _ I); auto. }
      split; [reflexivity|]. split.
      + constructor; intros; try (rewrite Hbk in *; discriminate); try lia.
        * eapply ti_some; eauto.
        * rewrite Ft, Nat.eqb_refl. destruct (Nat.leb_spec (tbin F s) b); [|lia].
          destruct (Nat.ltb_spec b ntime); [reflexivity|lia].
      + intros b x Hb. rewrite Ft, Fb.
        destruct (Nat.eqb_spec b bl); [contradiction|]. simpl.
        apply (ti_frame _ _ _ _ _ _ _ _ _ _ I). assumption.
  Qed.

  Fixpoint sumn (n : nat) (f : nat -> nat) : nat :=
    match n with O => 0 | S k => sumn k f + f k end.

  Lemma sumn_ext n f g : (forall k, k < n -> f k = g k) -> sumn n f = sumn n g.
  Proof.
    intros H. induction n as [|n IH]; [reflexivity|]. simpl.
    rewrite IH by (intros; apply H; lia). rewrite H by lia. reflexivity.
  Qed.

  Definition acc0 : acc F :=
    {| a_out_rows := 0; a_bin_lookup := fun _ _ => None;
       a_time := fun _ _ => zero F; a_int := fun _ _ => zero F;
       a_flagged := fun _ _ => false |}.

  Lemma bl_loop_spec nbl :
    let a := for_ nbl (bl_step F time interval flag_row secs ntime rl) acc0 in
    exists nbf,
      a_out_rows F a = sumn nbl nbf /\
      (forall bl, bl < nbl ->
         blfin bl (nbf bl) (a_bin_lookup F a bl) (a_time F a bl) (a_int F a bl) (a_flagged F a bl)) /\
      (forall bl x, nbl <= bl -> a_bin_lookup F a bl x = None /\ a_time F a bl x = zero F /\
                                 a_int F a bl x = zero F).
  Proof.
    induction nbl as [|nbl IH]; cbv zeta.
    - exists (fun _ => 0). cbn. repeat split; intros; lia.
    - destruct IH as [nbf [I1 [I2 I3]]]. rewrite for_S.
      set (a := for_ nbl _ acc0) in *.
      destruct (bl_step_spec nbl a _ (fun t => proj1 (I3 nbl t (le_n _)))
                  (fun t => proj1 (proj2 (I3 nbl t (le_n _))))
                  (fun t => proj2 (proj2 (I3 nbl t (le_n _)))) eq_refl)
        as [nb [J1 [J2 J3]]].
      set (a' := bl_step F time interval flag_row secs ntime rl nbl a) in *.
      exists (upd nbf nbl nb). split; [|split].
      + rewrite J1, I1. cbn [sumn]. rewrite upd_eq. f_equal.
        apply sumn_ext. intros k Hk. rewrite upd_neq by lia. reflexivity.
      + intros bl Hbl. destruct (Nat.eq_dec bl nbl) as [->|Hne].
        * rewrite upd_eq. exact J2.
        * rewrite upd_neq by assumption. specialize (I2 bl ltac:(lia)).
          assert (X : forall x, a_bin_lookup F a' bl x = a_bin_lookup F a bl x) by (intros; now apply J3).
          assert (Y : forall x, a_time F a' bl x = a_time F a bl x) by (intros; now apply J3).
          assert (Z : forall x, a_int F a' bl x = a_int F a bl x) by (intros; now apply J3).
          assert (W : forall x, a_flagged F a' bl x = a_flagged F a bl x) by (intros; now apply J3).
          assert (BR : forall b, binrows (rl bl) (a_bin_lookup F a' bl) ntime b =
                                 binrows (rl bl) (a_bin_lookup F a bl) ntime b)
            by (intros; apply binrows_ext; intros; apply X).
          destruct I2. constructor; intros; rewrite ?BR, ?X, ?Y, ?Z, ?W in *; eauto.
          rewrite <- (bf_open0 t0 r0 t' r b) by assumption.
          split; intros [t'' [A1 A2]]; exists t''; split; auto; [now rewrite <- X|now rewrite X].
      + intros bl x Hbl. destruct (J3 bl x ltac:(lia)) as [A1 [A2 [A3 _]]].
        rewrite A1, A2, A3. apply I3. lia.
  Qed.
End BlLoop.

(* ---------- sorted lists and filters ---------- *)
Section SortFilter.
  Context {A : Type} (R : A -> A -> Prop) (P : A -> bool).
  Lemma sorted_partition l :
    StronglySorted R l ->
    (forall x y, In x l -> In y l -> P x = false -> P y = true -> R x y -> False) ->
    l = filter P l ++ filter (fun x => negb (P x)) l.
  Proof.
    induction l as [|x l IH]; intros HS HP; [reflexivity|].
    inversion HS as [|? ? HS' HF]; subst. simpl. destruct (P x) eqn:E; simpl.
    - f_equal. apply IH; [exact HS'|]. intros a b Ha Hb. apply HP; now right.
    - assert (Hall : forall y, In y l -> P y = false).
      { intros y Hy. destruct (P y) eqn:Ey; [|reflexivity]. exfalso.
        rewrite Forall_forall in HF.
        apply (HP x y); auto; [now left|now right]. }
      assert (HN : filter P l = []).
      { clear -Hall. induction l as [|z l IH]; [reflexivity|]. simpl.
        rewrite Hall by now left. apply IH. intros; apply Hall; now right. }
      assert (HY : filter (fun x => negb (P x)) l = l).
      { clear -Hall. induction l as [|z l IH]; [reflexivity|]. simpl.
        rewrite Hall by now left. simpl. f_equal. apply IH. intros; apply Hall; now right. }
      rewrite HN, HY. reflexivity.
  Qed.
End SortFilter.

Lemma filter_perm_length {A} (P : A -> bool) l l' :
  Permutation l l' -> length (filter P l) = length (filter P l').
Proof.
  intros H. induction H; simpl; auto.
  - destruct (P x); simpl; lia.
  - destruct (P x), (P y); reflexivity.
  - lia.
Qed.

(* number of valid (bl, bin) cells in the flattened array *)
Lemma filter_cells nbl ntime nbf :
  (forall bl, bl < nbl -> nbf bl <= ntime) ->
  length (filter (fun k => Nat.ltb (k mod ntime) (nbf (k / ntime))) (seq 0 (nbl * ntime)))
  = sumn nbl nbf.
Proof.
  intros H. destruct (Nat.eq_dec ntime 0) as [->|Hnz].
  { rewrite Nat.mul_0_r. simpl. clear -H.
    induction nbl as [|nbl IH]; [reflexivity|]. simpl.
    rewrite <- IH by (intros; apply H; lia). specialize (H nbl ltac:(lia)). lia. }
  induction nbl as [|nbl IH]; [reflexivity|].
  cbn [sumn]. rewrite <- IH by (intros; apply H; lia).
  replace (S nbl * ntime) with (nbl * ntime + ntime) by lia.
  rewrite seq_app, filter_app, app_length. f_equal. rewrite Nat.add_0_l.
  assert (G : forall m, m <= ntime ->
     length (filter (fun k => Nat.ltb (k mod ntime) (nbf (k / ntime))) (seq (nbl * ntime) m))
     = Nat.min m (nbf nbl)).
  { induction m as [|m IHm]; intros Hm; [reflexivity|].
    rewrite seq_S, filter_app, app_length, IHm by lia. cbn [filter].
    replace ((nbl * ntime + m) mod ntime) with m
      by (rewrite Nat.add_comm, Nat.mod_add by lia; symmetry; apply Nat.mod_small; lia).
    replace ((nbl * ntime + m) / ntime) with nbl
      by (rewrite Nat.add_comm, Nat.div_add by lia; rewrite Nat.div_small by lia; lia).
    destruct (Nat.ltb_spec m (nbf nbl)); cbn [length]; lia. }
  rewrite G by lia. specialize (H nbl ltac:(lia)). lia.
Qed.

Lemma inv_argsort_spec l : forall i inv, NoDup l ->
  forall a, inv_argsort_loop l i inv a =
     match find (fun p => Nat.eqb (fst p) a) (combine l (seq i (length l))) with
     | Some p => Some (snd p)
     | None => inv a
     end.
Proof.
  induction l as [|x l IH]; intros i inv ND a; [reflexivity|].
  inversion ND as [|? ? Hni ND']; subst. cbn [inv_argsort_loop].
  rewrite IH by assumption. cbn [length seq combine find fst snd].
  destruct (Nat.eqb_spec x a) as [->|Hne].
  - destruct (find _ _) as [p|] eqn:E.
    + apply find_some in E. destruct E as [E1 E2]. apply Nat.eqb_eq in E2.
      destruct p as [p1 p2]. apply in_combine_l in E1. simpl in E2. subst. contradiction.
    + apply upd_eq.
  - destruct (find _ _); [reflexivity|]. apply upd_neq. congruence.
Qed.

Lemma inv_argsort_nth l inv : NoDup l -> forall a k,
  nth_error l k = Some a -> inv_argsort_loop l 0 inv a = Some k.
Proof.
  intros ND a k Hk. rewrite inv_argsort_spec by assumption.
  assert (H : forall i, find (fun p => Nat.eqb (fst p) a) (combine l (seq i (length l))) = Some (a, i + k)).
  { clear inv. revert k Hk ND. induction l as [|x l IH]; intros k Hk ND i; [destruct k; discriminate|].
    inversion ND as [|? ? Hni ND']; subst. cbn [length seq combine find fst snd].
    destruct k as [|k]; cbn [nth_error] in Hk.
    - injection Hk as <-. rewrite Nat.eqb_refl. now rewrite Nat.add_0_r.
    - destruct (Nat.eqb_spec x a) as [->|Hne].
      + exfalso. apply Hni. eapply nth_error_In; eauto.
      + rewrite (IH k Hk ND' (S i)). f_equal. f_equal. lia. }
  rewrite H. reflexivity.
Qed.
