(* corrupt_vis, correct_vis and residual_vis *)
From Coq Require Import Ring Field.
From Verif Require Import Prelude PreludeFacts CRing CField PredictModel PredictSpec PredictProofs CalModel CalSpec.
Open Scope nat_scope.

Section Proofs.
  Context {F : fops} (L : flaws F).
  Add Field Ffield : (law_field F L).
  Open Scope K_scope.
  Notation LC := (law_c F L).

  (* ---------- loops ---------- *)
  Lemma rows_loop start cnt nchan (g : nat -> nat -> jones F -> jones F) (o : @outbuf F) r f :
    for_ cnt (fun k => for_ nchan (fun nu o => at_rf o (start + k)%nat nu (g (start + k)%nat nu))) o r f =
      if (Nat.leb start r && Nat.ltb r (start + cnt) && Nat.ltb f nchan)%bool then g r f (o r f) else o r f.
  Proof.
    induction cnt as [|cnt IH].
    - cbn [for_]. destruct (Nat.leb_spec start r), (Nat.ltb_spec r (start + 0)); try lia; reflexivity.
    - rewrite for_S, loop_f. destruct (Nat.eqb_spec r (start + cnt)) as [E|Ne]; cbn [andb].
      + rewrite IH. destruct (Nat.leb_spec start r); [|lia].
        destruct (Nat.ltb_spec r (start + cnt)); [lia|]. destruct (Nat.ltb_spec r (start + S cnt)); [|lia]. cbn [andb].
        rewrite E. reflexivity.
      + rewrite IH. destruct (Nat.leb_spec start r), (Nat.ltb_spec r (start + cnt)), (Nat.ltb_spec r (start + S cnt)); try lia; reflexivity.
  Qed.

  Lemma in_bin_rebased n tbi tmin tbc t r : is_min n tbi tmin -> t < n ->
    (in_bin tbi tmin tbc t r <-> Z.to_nat (tbi t - tmin) <= r < Z.to_nat (tbi t - tmin) + tbc t).
  Proof. intros [_ H] Ht. specialize (H t Ht). unfold in_bin. lia. Qed.

  Lemma bins_spec n nchan tbi tmin tbc body (o : @outbuf F) r f :
    is_min n tbi tmin -> bins_disjoint n tbi tmin tbc ->
    (forall t, t < n -> in_bin tbi tmin tbc t r -> f < nchan ->
       bins_loop n nchan (fun t => (tbi t - tmin)%Z) tbc body o r f = body t r f (o r f)) /\
    ((forall t, t < n -> ~ in_bin tbi tmin tbc t r) ->
       bins_loop n nchan (fun t => (tbi t - tmin)%Z) tbc body o r f = o r f).
  Proof.
    intros Hm Hd. unfold bins_loop.
    assert (X : forall m, m <= n ->
      (forall t, t < m -> in_bin tbi tmin tbc t r -> f < nchan ->
         for_ m (fun t => for_ (tbc t) (fun k => for_ nchan (fun nu o => at_rf o (Z.to_nat (tbi t - tmin) + k)%nat nu (body t (Z.to_nat (tbi t - tmin) + k)%nat nu)))) o r f = body t r f (o r f)) /\
      ((forall t, t < m -> ~ in_bin tbi tmin tbc t r) ->
         for_ m (fun t => for_ (tbc t) (fun k => for_ nchan (fun nu o => at_rf o (Z.to_nat (tbi t - tmin) + k)%nat nu (body t (Z.to_nat (tbi t - tmin) + k)%nat nu)))) o r f = o r f)).
    { induction m as [|m IH]; intros Hmn; [split; [intros; lia|reflexivity]|].
      destruct (IH ltac:(lia)) as [I1 I2]. rewrite for_S, (rows_loop _ _ nchan (body m)). split.
      - intros t Ht Hb Hf. pose proof (proj1 (in_bin_rebased n tbi tmin tbc t r Hm ltac:(lia)) Hb) as Hb'.
        destruct (Nat.eq_dec t m) as [->|Ne].
        + destruct (Nat.leb_spec (Z.to_nat (tbi m - tmin)) r); [|lia].
          destruct (Nat.ltb_spec r (Z.to_nat (tbi m - tmin) + tbc m)); [|lia].
          destruct (Nat.ltb_spec f nchan); [|lia]. cbn [andb].
          f_equal. apply I2. intros t' Ht' Hb2. specialize (Hd t' m r ltac:(lia) ltac:(lia) Hb2 Hb). lia.
        + destruct (Nat.leb (Z.to_nat (tbi m - tmin)) r && Nat.ltb r (Z.to_nat (tbi m - tmin) + tbc m))%bool eqn:E.
          * exfalso. apply andb_true_iff in E. destruct E as [E1 E2]. apply Nat.leb_le in E1. apply Nat.ltb_lt in E2.
            apply Ne. apply (Hd t m r); try lia; [exact Hb|]. apply (in_bin_rebased n); try assumption; lia.
          * cbn [andb]. apply I1; [lia|exact Hb|exact Hf].
      - intros Hn. destruct (Nat.leb (Z.to_nat (tbi m - tmin)) r && Nat.ltb r (Z.to_nat (tbi m - tmin) + tbc m))%bool eqn:E.
        * exfalso. apply andb_true_iff in E. destruct E as [E1 E2]. apply Nat.leb_le in E1. apply Nat.ltb_lt in E2.
          apply (Hn m ltac:(lia)). apply (in_bin_rebased n); try assumption; lia.
        * cbn [andb]. apply I2. intros t Ht. apply Hn. lia. }
    exact (X n (Nat.le_refl n)).
  Qed.

  (* ---------- one direction ---------- *)
  Ltac two_cases i j := destruct i as [|[|i]]; destruct j as [|[|j]]; try lia.

  Lemma corrupt_dir_spec mode n a m b (o : jones F) i j : corr_ok (mode_full mode) n i j ->
    corrupt_dir mode n a m b o i j = o i j + gsandwich mode a m b i j.
  Proof.
    destruct mode; cbn [mode_full]; intros H; unfold gsandwich, sandwich.
    - destruct H as [Hi ->]. unfold corrupt_dir, jprod, jherm.
      rewrite (diag_loop true n (fun c _ => a c 0%nat * m c 0%nat * cconj (b c 0%nat))).
      destruct (Nat.ltb_spec i n); [|lia]. ring.
    - destruct H as [Hi Hj]. unfold corrupt_dir, jprod, jherm, jdiag. cbn [csum].
      two_cases i j; rewrite !put_at; cbn [Nat.eqb andb]; rewrite ?(conj_0 LC); ring.
    - destruct H as [Hi Hj]. unfold corrupt_dir, jprod, jherm. cbn [csum]. cbv zeta.
      two_cases i j; rewrite !put_at; cbn [Nat.eqb andb]; ring.
  Qed.

  Lemma psub_at (out : jones F) i j v a b :
    psub out i j v a b = if (Nat.eqb a i && Nat.eqb b j)%bool then out i j - v else out a b.
  Proof. reflexivity. Qed.
  Lemma sub_loop n (g : nat -> F) (out : jones F) i :
    for_ n (fun c o => psub o c 0 (g c)) out i 0%nat = if Nat.ltb i n then out i 0%nat - g i else out i 0%nat.
  Proof.
    assert (Z : forall m k, (m <= k)%nat -> for_ m (fun c o => psub o c 0 (g c)) out k 0%nat = out k 0%nat).
    { induction m as [|m IH]; intros k Hk; [reflexivity|]. rewrite for_S, psub_at.
      destruct (Nat.eqb_spec k m); [lia|]. simpl. apply IH. lia. }
    induction n as [|n IH]; [reflexivity|]. rewrite for_S, psub_at, Nat.eqb_refl, andb_true_r.
    destruct (Nat.eqb_spec i n) as [->|Ne].
    - rewrite Z by lia. destruct (Nat.ltb_spec n (S n)); [reflexivity|lia].
    - rewrite IH. destruct (Nat.ltb_spec i n), (Nat.ltb_spec i (S n)); try lia; reflexivity.
  Qed.
  Lemma subtract_dir_spec mode n a m b (o : jones F) i j : corr_ok (mode_full mode) n i j ->
    subtract_dir mode n a m b o i j = o i j - gsandwich mode a m b i j.
  Proof.
    destruct mode; cbn [mode_full]; intros H; unfold gsandwich, sandwich.
    - destruct H as [Hi ->]. unfold subtract_dir, jprod, jherm.
      rewrite (sub_loop n (fun c => a c 0%nat * m c 0%nat * cconj (b c 0%nat))).
      destruct (Nat.ltb_spec i n); [|lia]. ring.
    - destruct H as [Hi Hj]. unfold subtract_dir, jprod, jherm, jdiag. cbn [csum].
      two_cases i j; rewrite !psub_at; cbn [Nat.eqb andb]; rewrite ?(conj_0 LC); ring.
    - destruct H as [Hi Hj]. unfold subtract_dir, jprod, jherm. cbn [csum]. cbv zeta.
      two_cases i j; rewrite !psub_at; cbn [Nat.eqb andb]; ring.
  Qed.

  Lemma corrupt_mul_spec mode n nd a m b (o : jones F) i j : corr_ok (mode_full mode) n i j ->
    corrupt_mul mode n nd a m b o i j = o i j + jsum nd (fun s => gsandwich mode (a s) (m s) (b s)) i j.
  Proof.
    intros C. unfold corrupt_mul, jsum. induction nd as [|nd IH]; [cbn; ring|].
    rewrite for_S, corrupt_dir_spec, IH by exact C. cbn [csum]. ring.
  Qed.
  Lemma subtract_spec mode n nd a v b m (o : jones F) i j : corr_ok (mode_full mode) n i j ->
    subtract_model mode n nd a v b m o i j = v i j - jsum nd (fun s => gsandwich mode (a s) (m s) (b s)) i j.
  Proof.
    intros C. unfold subtract_model, jsum. induction nd as [|nd IH]; [cbn; ring|].
    rewrite for_S, subtract_dir_spec, IH by exact C. cbn [csum]. ring.
  Qed.

  (* ---------- corrupt_vis ---------- *)
  Definition mode_ndim (mode : cmode) : nat := match mode with DIAG_DIAG => 3 | _ => 4 end.

  Lemma mode_of_model jn mn mode : check_type jn mn VT_model = Ok mode -> mn = S (mode_ndim mode).
  Proof.
    unfold check_type. cbn [bind]. destruct (Nat.eqb_spec mn 4) as [->|].
    - destruct (Nat.eqb jn 5); cbn [negb]; intros H; try discriminate; injection H as <-. reflexivity.
    - destruct (Nat.eqb_spec mn 5) as [->|]; [|discriminate].
      destruct (Nat.eqb jn 5); [intros H; injection H as <-; reflexivity|].
      destruct (Nat.eqb jn 6); [intros H; injection H as <-; reflexivity|discriminate].
  Qed.

  (* what is computed, for any arithmetic *)
  Theorem corrupt_vis_raw n tbi tbc ant1 ant2 (g : gain_arr F) (m : model_arr F) mode tmin :
    check_type (j_ndim g) (m_ndim m) VT_model = Ok mode ->
    0 < n -> is_min n tbi tmin -> bins_disjoint n tbi tmin tbc ->
    exists tbi' out, corrupt_vis n tbi tbc ant1 ant2 g m = Ok (tbi', out) /\
      (forall t, tbi' t = (tbi t - tmin)%Z) /\
      v_ndim out = mode_ndim mode /\ v_row out = m_row m /\ v_chan out = m_chan m /\ v_corr out = m_corr m /\
      forall r f, f < m_chan m ->
        (forall t, t < n -> in_bin tbi tmin tbc t r ->
           v_at out r f = corrupt_mul mode (m_corr m) (m_dir m) (j_at g t (ant1 r) f) (m_at m r f) (j_at g t (ant2 r) f) (fun _ _ => 0)) /\
        ((forall t, t < n -> ~ in_bin tbi tmin tbc t r) -> v_at out r f = fun _ _ => 0).
  Proof.
    intros Hc Hn Hm Hd. unfold corrupt_vis. rewrite Hc. cbn [bind].
    destruct (Nat.eqb_spec n 0); [lia|].
    assert (Ez : zmin n tbi = tmin) by (apply (is_min_unique n tbi); [now apply zmin_is_min|exact Hm]).
    rewrite Ez. do 2 eexists. split; [reflexivity|]. split; [reflexivity|].
    cbn [v_ndim v_row v_chan v_corr v_at].
    split; [rewrite (mode_of_model _ _ _ Hc); lia|]. do 3 (split; [reflexivity|]).
    intros r f Hf. destruct (bins_spec n (m_chan m) tbi tmin tbc
        (fun t row nu => corrupt_mul mode (m_corr m) (m_dir m) (j_at g t (ant1 row) nu) (m_at m row nu) (j_at g t (ant2 row) nu))
        (fun _ _ _ _ => 0) r f Hm Hd) as [H1 H2]. split.
    - intros t Ht Hb. exact (H1 t Ht Hb Hf).
    - exact H2.
  Qed.
  Theorem corrupt_vis_spec n tbi tbc ant1 ant2 (g : gain_arr F) (m : model_arr F) mode tmin :
    check_type (j_ndim g) (m_ndim m) VT_model = Ok mode ->
    0 < n -> is_min n tbi tmin -> bins_disjoint n tbi tmin tbc ->
    exists tbi' out, corrupt_vis n tbi tbc ant1 ant2 g m = Ok (tbi', out) /\
      (forall t, tbi' t = (tbi t - tmin)%Z) /\
      v_ndim out = mode_ndim mode /\ v_row out = m_row m /\ v_chan out = m_chan m /\ v_corr out = m_corr m /\
      forall r f, f < m_chan m ->
        (forall t, t < n -> in_bin tbi tmin tbc t r ->
           jeq (mode_full mode) (m_corr m) (v_at out r f) (corrupted mode g m ant1 ant2 t r f)) /\
        ((forall t, t < n -> ~ in_bin tbi tmin tbc t r) ->
           jeq (mode_full mode) (m_corr m) (v_at out r f) jzero).
  Proof.
    intros Hc Hn Hm Hd. destruct (corrupt_vis_raw n tbi tbc ant1 ant2 g m mode tmin Hc Hn Hm Hd) as (tbi' & out & E & T & V1 & V2 & V3 & V4 & V).
    exists tbi', out. do 6 (split; [assumption|]). intros r f Hf. destruct (V r f Hf) as [H1 H2]. split.
    - intros t Ht Hb i j C. rewrite (H1 t Ht Hb), corrupt_mul_spec by exact C. unfold corrupted. unfold jsum. ring.
    - intros Hn' i j C. rewrite (H2 Hn'). reflexivity.
  Qed.

  (* ---------- residual_vis ---------- *)
  Lemma any_flag_spec mode n fl : any_flag mode n fl = true <-> flagged (mode_full mode) n fl.
  Proof.
    unfold flagged. destruct mode; cbn [any_flag mode_full corr_ok].
    - rewrite existsb_exists. split.
      + intros [c [Hc Hf]]. apply in_seq in Hc. exists c, 0%nat. split; [split; [lia|reflexivity]|exact Hf].
      + intros [i [j [[Hi ->] Hf]]]. exists i. split; [apply in_seq; lia|exact Hf].
    - rewrite existsb_exists. split.
      + intros [i [Hi Hx]]. apply existsb_exists in Hx. destruct Hx as [j [Hj Hf]].
        apply in_seq in Hi. apply in_seq in Hj. exists i, j. split; [lia|exact Hf].
      + intros [i [j [[Hi Hj] Hf]]]. exists i. split; [apply in_seq; lia|]. apply existsb_exists.
        exists j. split; [apply in_seq; lia|exact Hf].
    - rewrite existsb_exists. split.
      + intros [i [Hi Hx]]. apply existsb_exists in Hx. destruct Hx as [j [Hj Hf]].
        apply in_seq in Hi. apply in_seq in Hj. exists i, j. split; [lia|exact Hf].
      + intros [i [j [[Hi Hj] Hf]]]. exists i. split; [apply in_seq; lia|]. apply existsb_exists.
        exists j. split; [apply in_seq; lia|exact Hf].
  Qed.

  Theorem residual_vis_raw n tbi tbc ant1 ant2 (g : gain_arr F) (v : vis_arr F) flag (m : model_arr F) mode tmin :
    check_type (j_ndim g) (v_ndim v) VT_vis = Ok mode ->
    0 < n -> is_min n tbi tmin -> bins_disjoint n tbi tmin tbc ->
    exists tbi' out, residual_vis n tbi tbc ant1 ant2 g v flag m = Ok (tbi', out) /\
      (forall t, tbi' t = (tbi t - tmin)%Z) /\
      v_ndim out = v_ndim v /\ v_row out = v_row v /\ v_chan out = v_chan v /\ v_corr out = v_corr v /\
      forall r f, f < v_chan v ->
        (forall t, t < n -> in_bin tbi tmin tbc t r -> ~ flagged (mode_full mode) (v_corr v) (flag r f) ->
           v_at out r f = subtract_model mode (v_corr v) (m_dir m) (j_at g t (ant1 r) f) (v_at v r f) (j_at g t (ant2 r) f) (m_at m r f) (fun _ _ => 0)) /\
        ((flagged (mode_full mode) (v_corr v) (flag r f) \/ forall t, t < n -> ~ in_bin tbi tmin tbc t r) ->
           v_at out r f = fun _ _ => 0).
  Proof.
    intros Hc Hn Hm Hd. unfold residual_vis. rewrite Hc. cbn [bind].
    destruct (Nat.eqb_spec n 0); [lia|].
    assert (Ez : zmin n tbi = tmin) by (apply (is_min_unique n tbi); [now apply zmin_is_min|exact Hm]).
    rewrite Ez. do 2 eexists. split; [reflexivity|]. split; [reflexivity|].
    cbn [v_ndim v_row v_chan v_corr v_at]. do 4 (split; [reflexivity|]).
    intros r f Hf.
    match goal with |- context [bins_loop _ _ _ _ ?b ?z] => destruct (bins_spec n (v_chan v) tbi tmin tbc b z r f Hm Hd) as [H1 H2] end.
    split.
    - intros t Ht Hb Hfl. rewrite (H1 t Ht Hb Hf).
      destruct (any_flag mode (v_corr v) (flag r f)) eqn:E; [apply any_flag_spec in E; contradiction|]. cbn [negb].
      reflexivity.
    - intros [Hfl|Hn'].
      + apply any_flag_spec in Hfl.
        assert (D : (exists t, t < n /\ in_bin tbi tmin tbc t r) \/ forall t, t < n -> ~ in_bin tbi tmin tbc t r).
        { clear -Hm. assert (X : forall m, (exists t, t < m /\ in_bin tbi tmin tbc t r) \/ forall t, t < m -> ~ in_bin tbi tmin tbc t r).
          { induction m as [|m [[t [Ht Hb]]|IH]]; [right; intros; lia|left; exists t; split; [lia|exact Hb]|].
            assert (Dm : in_bin tbi tmin tbc m r \/ ~ in_bin tbi tmin tbc m r) by (unfold in_bin; lia).
            destruct Dm as [Dm|Dm]; [left; exists m; split; [lia|exact Dm]|].
            right. intros t Ht. destruct (Nat.eq_dec t m) as [->|]; [exact Dm|]. apply IH. lia. }
          apply X. }
        destruct D as [[t [Ht Hb]]|Hn'].
        * rewrite (H1 t Ht Hb Hf), Hfl. reflexivity.
        * now rewrite (H2 Hn').
      + now rewrite (H2 Hn').
  Qed.
  Theorem residual_vis_spec n tbi tbc ant1 ant2 (g : gain_arr F) (v : vis_arr F) flag (m : model_arr F) mode tmin :
    check_type (j_ndim g) (v_ndim v) VT_vis = Ok mode ->
    0 < n -> is_min n tbi tmin -> bins_disjoint n tbi tmin tbc ->
    exists tbi' out, residual_vis n tbi tbc ant1 ant2 g v flag m = Ok (tbi', out) /\
      (forall t, tbi' t = (tbi t - tmin)%Z) /\
      v_ndim out = v_ndim v /\ v_row out = v_row v /\ v_chan out = v_chan v /\ v_corr out = v_corr v /\
      forall r f, f < v_chan v ->
        (forall t, t < n -> in_bin tbi tmin tbc t r -> ~ flagged (mode_full mode) (v_corr v) (flag r f) ->
           jeq (mode_full mode) (v_corr v) (v_at out r f) (jsub (v_at v r f) (corrupted mode g m ant1 ant2 t r f))) /\
        ((flagged (mode_full mode) (v_corr v) (flag r f) \/ forall t, t < n -> ~ in_bin tbi tmin tbc t r) ->
           jeq (mode_full mode) (v_corr v) (v_at out r f) jzero).
  Proof.
    intros Hc Hn Hm Hd. destruct (residual_vis_raw n tbi tbc ant1 ant2 g v flag m mode tmin Hc Hn Hm Hd) as (tbi' & out & E & T & V1 & V2 & V3 & V4 & V).
    exists tbi', out. do 6 (split; [assumption|]). intros r f Hf. destruct (V r f Hf) as [H1 H2]. split.
    - intros t Ht Hb Hfl i j C. rewrite (H1 t Ht Hb Hfl), subtract_spec by exact C. reflexivity.
    - intros Hz i j C. rewrite (H2 Hz). reflexivity.
  Qed.

  (* ---------- correct_vis ---------- *)
  Lemma correct_mul_left mode n a v b (o : jones F) i j : corr_ok (mode_full mode) n i j ->
    gain_ok mode n a -> gain_ok mode n b ->
    gsandwich mode a (correct_mul mode n a v b o) b i j = v i j.
  Proof.
    intros C Ga Gb. destruct mode; cbn [mode_full] in C; unfold gsandwich, sandwich, correct_mul, jprod, jherm.
    - destruct C as [Hi ->]. cbn [gain_ok] in *.
      rewrite (diag_loop false n (fun c _ => v c 0%nat / (a c 0%nat * cconj (b c 0%nat)))).
      destruct (Nat.ltb_spec i n); [|lia].
      pose proof (Ga i Hi). pose proof (conj_nz L _ (Gb i Hi)). field. auto.
    - destruct C as [Hi Hj]. destruct Ga as [A0 A1]. destruct Gb as [B0 B1].
      pose proof (conj_nz L _ B0). pose proof (conj_nz L _ B1). unfold jdiag. cbn [csum].
      two_cases i j; rewrite !put_at; cbn [Nat.eqb andb]; rewrite ?(conj_0 LC); field; auto.
    - destruct C as [Hi Hj]. cbn [gain_ok] in *.
      assert (B' : cconj (b 0%nat 0%nat) * cconj (b 1%nat 1%nat) - cconj (b 0%nat 1%nat) * cconj (b 1%nat 0%nat) <> 0).
      { rewrite <- !(law_conj_mul F LC), <- (conj_sub LC). now apply conj_nz. }
      cbn [csum]. cbv zeta. two_cases i j; rewrite !put_at; cbn [Nat.eqb andb]; field; auto.
  Qed.

  Lemma correct_mul_right mode n a m b (o : jones F) i j : corr_ok (mode_full mode) n i j ->
    gain_ok mode n a -> gain_ok mode n b ->
    correct_mul mode n a (gsandwich mode a m b) b o i j = m i j.
  Proof.
    intros C Ga Gb. destruct mode; cbn [mode_full] in C; unfold gsandwich, sandwich, correct_mul, jprod, jherm.
    - destruct C as [Hi ->]. cbn [gain_ok] in *.
      rewrite (diag_loop false n (fun c _ => a c 0%nat * (m c 0%nat * cconj (b c 0%nat)) / (a c 0%nat * cconj (b c 0%nat)))).
      destruct (Nat.ltb_spec i n); [|lia].
      pose proof (Ga i Hi). pose proof (conj_nz L _ (Gb i Hi)). field. auto.
    - destruct C as [Hi Hj]. destruct Ga as [A0 A1]. destruct Gb as [B0 B1].
      pose proof (conj_nz L _ B0). pose proof (conj_nz L _ B1). unfold jdiag. cbn [csum].
      two_cases i j; rewrite !put_at; cbn [Nat.eqb andb]; rewrite ?(conj_0 LC); field; auto.
    - destruct C as [Hi Hj]. cbn [gain_ok] in *.
      assert (B' : cconj (b 0%nat 0%nat) * cconj (b 1%nat 1%nat) - cconj (b 0%nat 1%nat) * cconj (b 1%nat 0%nat) <> 0).
      { rewrite <- !(law_conj_mul F LC), <- (conj_sub LC). now apply conj_nz. }
      cbn [csum]. cbv zeta. two_cases i j; rewrite !put_at; cbn [Nat.eqb andb]; field; auto.
  Qed.

  Lemma correct_mul_ext mode n a v w b (o : jones F) i j : jeq (mode_full mode) n v w -> corr_ok (mode_full mode) n i j ->
    correct_mul mode n a v b o i j = correct_mul mode n a w b o i j.
  Proof.
    intros H C. destruct mode; cbn [mode_full] in *; unfold correct_mul.
    - destruct C as [Hi ->].
      rewrite (diag_loop false n (fun c _ => v c 0%nat / (a c 0%nat * cconj (b c 0%nat)))).
      rewrite (diag_loop false n (fun c _ => w c 0%nat / (a c 0%nat * cconj (b c 0%nat)))).
      rewrite (H i 0%nat) by (split; [exact Hi|reflexivity]). reflexivity.
    - rewrite !(H _ _ (conj (Nat.lt_0_succ 1) (Nat.lt_0_succ 1) : corr_ok true n 0 0)), !(H 0%nat 1%nat), !(H 1%nat 0%nat), !(H 1%nat 1%nat) by (cbn; lia). reflexivity.
    - cbv zeta. rewrite !(H 0%nat 0%nat), !(H 0%nat 1%nat), !(H 1%nat 0%nat), !(H 1%nat 1%nat) by (cbn; lia). reflexivity.
  Qed.

  Theorem correct_vis_spec n tbi tbc ant1 ant2 (g : gain_arr F) (v : vis_arr F) flag mode tmin :
    check_type (j_ndim g) (v_ndim v) VT_vis = Ok mode -> j_dir g <= 1 -> j_tim g = n -> j_chan g = v_chan v ->
    0 < n -> is_min n tbi tmin -> bins_disjoint n tbi tmin tbc ->
    exists tbi' out, correct_vis n tbi tbc ant1 ant2 g v flag = Ok (tbi', out) /\
      (forall t, tbi' t = (tbi t - tmin)%Z) /\
      v_ndim out = v_ndim v /\ v_row out = v_row v /\ v_chan out = v_chan v /\ v_corr out = v_corr v /\
      forall r f, f < v_chan v ->
        (forall t, t < n -> in_bin tbi tmin tbc t r -> ~ flagged (mode_full mode) (v_corr v) (flag r f) ->
           v_at out r f = correct_mul mode (v_corr v) (j_at g t (ant1 r) f 0%nat) (v_at v r f) (j_at g t (ant2 r) f 0%nat) (fun _ _ => 0)) /\
        ((flagged (mode_full mode) (v_corr v) (flag r f) \/ forall t, t < n -> ~ in_bin tbi tmin tbc t r) ->
           jeq (mode_full mode) (v_corr v) (v_at out r f) jzero).
  Proof.
    intros Hc Hdir Ht Hch Hn Hm Hd. unfold correct_vis. rewrite Hc. cbn [bind].
    destruct (Nat.eqb_spec n 0); [lia|]. destruct (Nat.ltb_spec 1 (j_dir g)); [lia|].
    assert (Ez : zmin n tbi = tmin) by (apply (is_min_unique n tbi); [now apply zmin_is_min|exact Hm]).
    rewrite Ez, Ht, Hch. do 2 eexists. split; [reflexivity|]. split; [reflexivity|].
    cbn [v_ndim v_row v_chan v_corr v_at]. do 4 (split; [reflexivity|]).
    intros r f Hf.
    match goal with |- context [bins_loop _ _ _ _ ?b ?z] => destruct (bins_spec n (v_chan v) tbi tmin tbc b z r f Hm Hd) as [H1 H2] end.
    split.
    - intros t Htt Hb Hfl. rewrite (H1 t Htt Hb Hf).
      destruct (any_flag mode (v_corr v) (flag r f)) eqn:E; [apply any_flag_spec in E; contradiction|]. reflexivity.
    - intros [Hfl|Hn'] i j C.
      + apply any_flag_spec in Hfl.
        assert (D : forall m, (exists t, t < m /\ in_bin tbi tmin tbc t r) \/ forall t, t < m -> ~ in_bin tbi tmin tbc t r).
        { clear. induction m as [|m [[t [Ht Hb]]|IH]]; [right; intros; lia|left; exists t; split; [lia|exact Hb]|].
          assert (Dm : in_bin tbi tmin tbc m r \/ ~ in_bin tbi tmin tbc m r) by (unfold in_bin; lia).
          destruct Dm as [Dm|Dm]; [left; exists m; split; [lia|exact Dm]|].
          right. intros t Ht. destruct (Nat.eq_dec t m) as [->|]; [exact Dm|]. apply IH. lia. }
        destruct (D n) as [[t [Htt Hb]]|Hn'].
        * rewrite (H1 t Htt Hb Hf), Hfl. reflexivity.
        * now rewrite (H2 Hn').
      + now rewrite (H2 Hn').
  Qed.
End Proofs.
