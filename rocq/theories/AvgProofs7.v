(* End-to-end facts about time_and_channel. *)
From Coq Require Import QArith QArith.Qcanon.
From Verif Require Import Prelude PreludeFacts AvgModel AvgModel2 AvgSpec AvgSpec2 QcArith QcFacts
     AvgProofs3 AvgProofs4 AvgProofs5 AvgProofs6.
Close Scope Qc_scope. Close Scope Q_scope.
Open Scope nat_scope.

Lemma conflict_app l1 l2 : extents_conflict l1 -> extents_conflict (l1 ++ l2).
Proof.
  intros [a1 [a [a2 [b [a3 [-> H]]]]]]. exists a1, a, a2, b, (a3 ++ l2). split; [|exact H].
  rewrite <- !app_assoc. simpl. rewrite <- app_assoc. reflexivity.
Qed.

Lemma present_app {A} (l1 l2 : list (option A)) : present (l1 ++ l2) = present l1 ++ present l2.
Proof. apply flat_map_app. Qed.

Lemma chan_corrs_cubes vis flag ws ss freq width ebw resn s :
  chan_corrs vis flag ws ss freq width ebw resn = Ok s ->
  exists s2, chan_corrs vis flag ws ss None None None None = Ok s2.
Proof.
  intros E. pose proof (chan_corrs_spec vis flag ws ss freq width ebw resn) as A.
  pose proof (chan_corrs_spec vis flag ws ss None None None None) as B.
  rewrite E in A. cbv zeta in A, B. destruct s as [x y]. destruct A as [A1 [A2 _]].
  destruct (chan_corrs vis flag ws ss None None None None) as [s2|e]; [eauto|]. exfalso.
  destruct B as [_ [B|B]]; [|contradiction]. apply A1.
  unfold chan_dims in *. clear -B.
  change [option_map fst vis; option_map fst flag; option_map fst ws; option_map fst ss; freq; width; ebw; resn]
    with ([option_map fst vis; option_map fst flag; option_map fst ws; option_map fst ss] ++ [freq; width; ebw; resn]).
  rewrite present_app. apply conflict_app.
  change [option_map fst vis; option_map fst flag; option_map fst ws; option_map fst ss; None; None; None; None]
    with ([option_map fst vis; option_map fst flag; option_map fst ws; option_map fst ss] ++ [@None nat; None; None; None]) in B.
  rewrite present_app in B. cbn [present flat_map] in B. rewrite app_nil_r in B. exact B.
Qed.

Section E2E.
  Context (F : arith) (OK : arith_ok F) (K : farith) (t : tc_input F K) (ant_init : arr Z).
  Context (H1 : int32_col (t_n F K t) (t_ant1 F K t)) (H2 : int32_col (t_n F K t) (t_ant2 F K t))
          (HS : sentinel_above F (t_n F K t) (t_time F K t)).
  Context (Hbs : 0 < t_bin_size F K t).

  Notation cc := (chan_corrs (t_vis_sh F K t) (t_flag_sh F K t) (t_ws_sh F K t) (t_ss_sh F K t)
                    (dims K (t_freq F K t)) (dims K (t_width F K t)) (dims K (t_ebw F K t)) (dims K (t_res F K t))).
  Definition flag_ext : nat * nat := match t_flag_sh F K t with Some p => p | None => (0, 0) end.
  Notation mf := (merge_flags (t_n F K t) (fst flag_ext) (snd flag_ext) (t_flag_row F K t) (in_flag K (t_cells F K t))).
  Notation rmf fr := (row_mapper F (t_n F K t) (t_time F K t) (t_interval F K t) (t_ant1 F K t) (t_ant2 F K t) fr (t_secs F K t)).

  Lemma tc_unfold : time_and_channel F K t ant_init =
    do! s <- cc; do! flag_row <- mf; do! rm <- rmf flag_row;
    do! s2 <- chan_corrs (t_vis_sh F K t) (t_flag_sh F K t) (t_ws_sh F K t) (t_ss_sh F K t) None None None None;
    let cm := channel_mapper (fst s) (t_bin_size F K t) in
    do! rc <- row_chan_average K (t_n F K t) (fst s) (snd s2) (rm_out_rows F rm) (snd cm)
                               (rm_map F rm) (fst cm) flag_row (rm_flag_row F rm) (t_cells F K t);
    Ok {| to_rows := rm;
          to_row := row_average K (t_n F K t) (rm_out_rows F rm) (rm_map F rm) (rm_flag_row F rm)
                          (t_ant1 F K t) (t_ant2 F K t) flag_row (t_rows F K t) ant_init;
          to_chan := chan_average K (fst s) (snd cm) (fst cm) (vals K (t_freq F K t)) (vals K (t_width F K t))
                           (vals K (t_ebw F K t)) (vals K (t_res F K t));
          to_out_chans := snd cm; to_cells := rc |}.
  Proof.
    unfold time_and_channel, flag_ext. destruct cc as [s|]; [|reflexivity]. cbn [bind].
    destruct (t_flag_sh F K t) as [[fc fr]|]; cbn [fst snd];
    (match goal with |- bind ?m _ = _ => destruct m as [flr|]; [|reflexivity] end; cbn [bind];
     destruct (rmf flr) as [rm|]; [|reflexivity]; cbn [bind];
     destruct (channel_mapper (fst s) (t_bin_size F K t)) as [cmap ochans]; reflexivity).
  Qed.

  (* every output row has a contributing input row when row flags are 0 or 1 *)
  Lemma contributing_row fr rm r :
    (forall f, fr = Some f -> forall i, i < t_n F K t -> f i = 0%Z \/ f i = 1%Z) ->
    rmf fr = Ok rm -> r < rm_out_rows F rm ->
    exists i, i < t_n F K t /\ rm_map F rm i = r /\ contributes fr (rm_flag_row F rm) i r.
  Proof.
    intros H01 E Hr.
    destruct (rm_total F OK _ _ _ _ _ _ _ _ H1 H2 HS E) as [_ Onto].
    destruct (Onto r Hr) as [i0 [Hi0 Em0]].
    destruct fr as [f|]; [|exists i0; simpl; auto].
    destruct (rm_flags F OK _ _ _ _ _ _ _ _ H1 H2 HS E) as [G|G]; [|lia].
    destruct G as [og [Eo G]]. rewrite Eo. specialize (G r Hr). destruct G as [[G|G] G2].
    - assert (X : exists i, i < t_n F K t /\ rm_map F rm i = r /\ f i = 0%Z).
      { clear -G G2 H01.
        assert (D : forall m, m <= t_n F K t ->
          (exists i, i < t_n F K t /\ rm_map F rm i = r /\ f i = 0%Z) \/
          (forall i, i < m -> rm_map F rm i = r -> f i <> 0%Z)).
        { induction m as [|m IH]; intros Hm; [right; intros; lia|].
          destruct (IH ltac:(lia)) as [A|A]; [now left|].
          destruct (Nat.eq_dec (rm_map F rm m) r) as [Er|Er];
            [destruct (Z.eq_dec (f m) 0) as [Ez|Ez]|].
          - left. exists m. auto.
          - right. intros i Hi Ei. destruct (Nat.eq_dec i m) as [->|]; [exact Ez|]. apply A; [lia|exact Ei].
          - right. intros i Hi Ei. destruct (Nat.eq_dec i m) as [->|]; [contradiction|]. apply A; [lia|exact Ei]. }
        destruct (D (t_n F K t) (le_n _)) as [A|A]; [exact A|]. exfalso.
        apply (proj2 G2 A). exact G. }
      destruct X as [i [Hi [Em Ez]]]. exists i. split; [exact Hi|]. split; [exact Em|]. simpl. congruence.
    - assert (Hall : forall i, i < t_n F K t -> rm_map F rm i = r -> f i <> 0%Z) by (apply G2; lia).
      exists i0. split; [exact Hi0|]. split; [exact Em0|]. simpl.
      specialize (Hall i0 Hi0 Em0). destruct (H01 f eq_refl i0 Hi0); [contradiction|congruence].
  Qed.

  Theorem time_and_channel_total s fr :
    cc = Ok s -> mf = Ok fr ->
    rows_distinct (t_n F K t) (t_time F K t) (t_ant1 F K t) (t_ant2 F K t) ->
    (forall f, t_flag_row F K t = Some f -> forall i, i < t_n F K t -> f i = 0%Z \/ f i = 1%Z) ->
    exists out, time_and_channel F K t ant_init = Ok out.
  Proof.
    intros Ec Em HD H01. rewrite tc_unfold, Ec. cbn [bind]. rewrite Em. cbn [bind].
    assert (H01' : forall f, fr = Some f -> forall i, i < t_n F K t -> f i = 0%Z \/ f i = 1%Z).
    { intros f -> i Hi.
      pose proof (merge_flags_spec (t_n F K t) (fst flag_ext) (snd flag_ext) (t_flag_row F K t)
                    (in_flag K (t_cells F K t))) as M.
      destruct (t_flag_row F K t) as [f0|], (in_flag K (t_cells F K t)) as [fl|].
      - destruct M as [[M _]|[M _]]; rewrite M in Em; [|discriminate]. injection Em as <-. eauto.
      - rewrite M in Em. injection Em as <-. eauto.
      - destruct M as [f' [M M2]]. rewrite M in Em. injection Em as <-. apply M2. exact Hi.
      - rewrite M in Em. discriminate. }
    destruct (proj2 (row_mapper_ok_iff F OK _ _ (t_interval F K t) _ _ fr (t_secs F K t) H1 H2 HS) HD) as [rm Er].
    rewrite Er. cbn [bind].
    destruct (chan_corrs_cubes _ _ _ _ _ _ _ _ _ Ec) as [s2 Ec2]. rewrite Ec2. cbn [bind].
    pose proof (channel_mapper_spec (fst s) (t_bin_size F K t) Hbs) as CM.
    destruct (channel_mapper (fst s) (t_bin_size F K t)) as [cmap ochans]. cbn [fst snd].
    destruct CM as [C1 [C2 [C3 [C4 C5]]]].
    destruct (proj1 (row_chan_average_raises K (t_n F K t) (fst s) (snd s2) (rm_out_rows F rm) ochans
                (rm_map F rm) cmap fr (rm_flag_row F rm) (t_cells F K t))) as [rc Erc].
    { intros r f c Hr Hf Hc.
      destruct (contributing_row fr rm r H01' Er Hr) as [i [Hi [Ei Ci]]].
      assert (X : exists ch, ch < fst s /\ cmap ch = f).
      { destruct (Nat.eq_dec (S f) ochans) as [Eq|Eq].
        - destruct (C5 f Eq) as [k [Hk [l [_ [L2 L3]]]]]. destruct l as [|ch l]; [simpl in L3; lia|].
          exists ch. apply L2. now left.
        - destruct (C4 f ltac:(lia)) as [l [_ [L2 L3]]]. destruct l as [|ch l]; [simpl in L3; lia|].
          exists ch. apply L2. now left. }
      destruct X as [ch [Hch Ech]]. exists i, ch. auto 10. }
    rewrite Erc. cbn [bind]. eauto.
  Qed.

  (* with a flag cube, an averaged cell is flagged iff every input sample mapped to
     it is flagged *)
  Theorem cell_flag_iff out fl :
    time_and_channel F K t ant_init = Ok out ->
    in_flag K (t_cells F K t) = Some fl ->
    forall s s2, cc = Ok s -> t_flag_sh F K t = Some s2 -> fst s <= fst s2 ->
    forall r f c, r < rm_out_rows F (to_rows F K out) -> f < to_out_chans F K out -> c < snd s2 ->
      (oc_flag K (to_cells F K out r f c) = 0%Z \/ oc_flag K (to_cells F K out r f c) = 1%Z) /\
      (oc_flag K (to_cells F K out r f c) = 1%Z <->
       forall i ch, i < t_n F K t -> ch < fst s -> rm_map F (to_rows F K out) i = r ->
                    ch / t_bin_size F K t = f -> fl i ch c <> 0%Z).
  Proof.
    intros E Efl s s2 Ec Esh Hfc r f c Hr Hf Hc. rewrite tc_unfold, Ec in E. cbn [bind] in E.
    destruct mf as [fr|] eqn:Em; [|discriminate]. cbn [bind] in E.
    destruct (rmf fr) as [rm|] eqn:Er; [|discriminate]. cbn [bind] in E.
    destruct (chan_corrs (t_vis_sh F K t) (t_flag_sh F K t) (t_ws_sh F K t) (t_ss_sh F K t) None None None None)
      as [s3|] eqn:Ec2; [|discriminate]. cbn [bind] in E.
    pose proof (channel_mapper_spec (fst s) (t_bin_size F K t) Hbs) as CM.
    destruct (channel_mapper (fst s) (t_bin_size F K t)) as [cmap ochans]. cbv zeta in E. cbn [fst snd] in E.
    destruct CM as [C1 [C2 [C3 _]]].
    destruct (row_chan_average K _ _ _ _ _ _ _ _ _ _) as [rc|] eqn:Erc in E; [|discriminate].
    cbn [bind] in E. injection E as <-. cbn [to_rows to_out_chans to_cells] in *.
    assert (Hcorr : snd s3 = snd s2).
    { pose proof (chan_corrs_spec (t_vis_sh F K t) (t_flag_sh F K t) (t_ws_sh F K t) (t_ss_sh F K t) None None None None) as A.
      rewrite Ec2 in A. cbv zeta in A. destruct s3 as [x y]. destruct A as [_ [_ [_ [_ A]]]].
      assert (I : In (snd s2) (corr_dims (t_vis_sh F K t) (t_flag_sh F K t) (t_ws_sh F K t) (t_ss_sh F K t))).
      { rewrite Esh. unfold corr_dims. destruct (t_vis_sh F K t); cbn; auto. }
      destruct (A _ I) as [Z|Z]; [lia|]. simpl. auto. }
    rewrite Hcorr in Erc.
    destruct (row_chan_average_spec K _ _ _ _ _ _ _ _ _ _ _ Erc r f c Hr Hf Hc)
      as [lu [lf [l [A1 [A2 [A3 [A4 _]]]]]]].
    split; [destruct A4 as [[_ [_ ->]]|[_ [_ ->]]]; auto|].
    pose proof (merge_flags_spec (t_n F K t) (fst flag_ext) (snd flag_ext) (t_flag_row F K t)
                    (in_flag K (t_cells F K t))) as M.
    assert (Efx : flag_ext = s2) by (unfold flag_ext; now rewrite Esh). rewrite Efx in *.
    assert (X : exists g, fr = Some g /\ forall i, i < t_n F K t ->
                 (g i <> 0%Z <-> row_all_flagged (fst s2) (snd s2) fl i)).
    { rewrite Efl in M, Em. destruct (t_flag_row F K t) as [g|].
      - destruct M as [[M M2]|[M _]]; rewrite M in Em; [|discriminate]. injection Em as <-. exists g. auto.
      - destruct M as [g [M M2]]. rewrite M in Em. injection Em as <-. exists g. split; [reflexivity|].
        intros i Hi. apply M2. exact Hi. }
    destruct X as [g [-> Hg]].
    destruct (rm_flags F OK _ _ _ _ _ _ _ _ H1 H2 HS Er) as [G|G]; [|lia].
    destruct G as [og [Eo G]]. specialize (G r Hr). destruct G as [G01 G2].
    split.
    - intros Ef i ch Hi Hch Ei Ech Z.
      assert (Hlu : lu = []) by (destruct A4 as [[_ [_ Q]]|[Q _]]; [congruence|exact Q]).
      assert (In (i, ch) lu); [|rewrite Hlu in *; contradiction].
      apply A1. split; [exact Hi|]. split; [exact Hch|]. split; [exact Ei|].
      split; [rewrite C1; auto|]. split.
      + rewrite Eo. simpl.
        assert (gi : g i = 0%Z).
        { destruct (Z.eq_dec (g i) 0) as [|Hn]; [assumption|]. exfalso.
          apply (proj1 (Hg i Hi) Hn ch c); auto; lia. }
        rewrite gi. destruct G01 as [->| G1]; [reflexivity|]. exfalso.
        apply (proj1 G2 ltac:(lia) i Hi Ei). exact gi.
      + unfold sample_flagged. rewrite Efl. auto.
    - intros H. destruct A4 as [[Q1 [Q2 Q3]]|[_ [_ Q]]]; [|exact Q]. exfalso.
      destruct lu as [|[i ch] lu']; [congruence|].
      destruct (proj1 (proj2 A1 i ch) (or_introl eq_refl)) as [B1 [B2 [B3 [B4 [B5 B6]]]]].
      apply B6. unfold sample_flagged. rewrite Efl. apply H; auto. rewrite <- C1; auto.
  Qed.
End E2E.

(* ---------- exact instance ---------- *)
Lemma QcK_cmonoid sq : comm_monoid (cadd (QcK sq)) (c0 (QcK sq)).
Proof.
  constructor; cbn; intros; try (destruct x as [x1 x2]); try (destruct y as [y1 y2]);
    try (destruct z as [z1 z2]); cbn; f_equal; ring.
Qed.
Lemma QcK_fmonoid sq : comm_monoid (fadd (QcK sq)) (f0 (QcK sq)).
Proof. constructor; cbn; intros; ring. Qed.
Lemma QcK_div sq z w : fnonzero (QcK sq) w = true -> cscale (QcK sq) (cdiv (QcK sq) z w) w = z.
Proof.
  cbn. rewrite negb_true_iff. intros H. destruct z as [a b]. cbn.
  assert (w <> 0%Qc).
  { intros ->. unfold Qc_eq_bool in H. destruct (Qc_eq_dec 0 0); congruence. }
  f_equal; (unfold Qcdiv; rewrite <- Qcmult_assoc, (Qcmult_comm (/ w)), Qcmult_inv_r by assumption; ring).
Qed.
