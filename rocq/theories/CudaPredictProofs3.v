From Coq Require Import Reals Lra Ring.
From Verif Require Import Prelude PreludeFacts LoopFacts CRing CplxR UtilModel PredictModel PredictSpec PredictProofs DaskRimeModel DaskRimeProofs CohSpec
  CudaPredictModel CudaPredictSpec CudaPredictProofs CudaPredictProofs2.
Open Scope nat_scope.

(* flattened positions *)
Lemma flat_at shape at_ idx n : inside idx shape -> n = ravel shape idx -> flat shape at_ n = at_ idx.
Proof. intros H ->. unfold flat. now rewrite unravel_ravel. Qed.

(* a' holds the same correlations as a, read as m says *)
Definition same_corrs (full : bool) (nc corrs : nat) (m : bool) (J J' : jones RC) : Prop :=
  forall c, c < corrs -> corr_at full nc J c = corr_at m 2 J' c.
Record view (full : bool) (nc corrs : nat) (m : bool) (a a' : predict_in RC) : Prop := {
  vw_row : p_nrow a' = p_nrow a; vw_time : p_time a' = p_time a; vw_a1 : p_ant1 a' = p_ant1 a; vw_a2 : p_ant2 a' = p_ant2 a;
  vw_dde1 : match p_dde1 a, p_dde1 a' with None, None => True | Some e, Some e' => d_src e' = d_src e /\ forall s t p f, same_corrs full nc corrs m (d_at e s t p f) (d_at e' s t p f) | _, _ => False end;
  vw_dde2 : match p_dde2 a, p_dde2 a' with None, None => True | Some e, Some e' => d_src e' = d_src e /\ forall s t p f, same_corrs full nc corrs m (d_at e s t p f) (d_at e' s t p f) | _, _ => False end;
  vw_coh : match p_coh a, p_coh a' with None, None => True | Some e, Some e' => h_src e' = h_src e /\ forall s r f, same_corrs full nc corrs m (h_at e s r f) (h_at e' s r f) | _, _ => False end;
  vw_die1 : match p_die1 a, p_die1 a' with None, None => True | Some e, Some e' => forall t p f, same_corrs full nc corrs m (g_at e t p f) (g_at e' t p f) | _, _ => False end;
  vw_die2 : match p_die2 a, p_die2 a' with None, None => True | Some e, Some e' => forall t p f, same_corrs full nc corrs m (g_at e t p f) (g_at e' t p f) | _, _ => False end;
  vw_bvis : match p_bvis a, p_bvis a' with None, None => True | Some e, Some e' => forall r f, same_corrs full nc corrs m (v_at e r f) (v_at e' r f) | _, _ => False end
}.

Lemma cuda_core full nsrc nchan ncorr m double x order und garbage a a' :
  shapes full nsrc nchan ncorr a -> view full ncorr (flat_corrs full ncorr) m a a' ->
  (if m then flat_corrs full ncorr = 4 else flat_corrs full ncorr <> 4) -> 0 < flat_corrs full ncorr -> jm_ok (flat_corrs full ncorr) a = true ->
  paired (p_dde1 a) (p_dde2 a) -> paired (p_die1 a) (p_die2 a) -> more_than_base a -> 0 < p_nrow a ->
  indices_ok x a -> any_schedule double order ->
  exists out, cuda_predict_vis (true, true, true) double x order und garbage a = Ok out /\
    v_ndim out = (if full then 4 else 3) /\ v_row out = p_nrow a /\ v_chan out = nchan /\ v_corr out = ncorr /\
    forall tmin, is_min (p_nrow a) (p_time a) tmin -> forall r f i j, r < p_nrow a -> f < nchan ->
      let c := if full then i * ncorr + j else i in c < flat_corrs full ncorr ->
      v_at out r f i j = corr_at m 2 (measurement m (Z.to_nat (p_time a r - tmin)) a' r f) c.
Proof.
  intros Sh Vw Hm Hp Jm P1 P2 Mo Hn Ix Sc. set (corrs := flat_corrs full ncorr) in *.
  assert (CD : corr_dims a = Ok (if full then 2 else 1) /\ output_shape a = Ok (p_nrow a, nchan, ncorr) /\ kernel_nchan a = Ok nchan).
  { unfold corr_dims, output_shape, kernel_nchan. destruct P1 as [P1 P1'], P2 as [P2 P2'].
    destruct (p_dde1 a) as [e1|] eqn:E1.
    - destruct (p_dde2 a) as [e2|]; [|discriminate (P1' eq_refl)]. destruct (sh_dde1 _ _ _ _ _ Sh _ E1) as (-> & _ & -> & ->). destruct full; auto.
    - destruct (p_coh a) as [h|] eqn:Eh; [destruct (sh_coh _ _ _ _ _ Sh _ Eh) as (-> & _ & _ & -> & ->)|].
      + destruct (p_die1 a) as [g1|] eqn:Eg1.
        * destruct (p_die2 a) as [g2|]; [|discriminate (P2' eq_refl)]. destruct (sh_die1 _ _ _ _ _ Sh _ Eg1) as (_ & -> & _). destruct full; auto.
        * destruct full; auto.
      + destruct (p_die1 a) as [g1|] eqn:Eg1.
        * destruct (p_die2 a) as [g2|]; [|discriminate (P2' eq_refl)]. destruct (sh_die1 _ _ _ _ _ Sh _ Eg1) as (-> & -> & ->). destruct full; auto.
        * destruct Mo as [M|[M|M]]; congruence. }
  destruct CD as (CD & OS & KN). unfold cuda_predict_vis. rewrite CD, OS. cbn [bind].
  replace (if Nat.eqb (if full then 2 else 1) 2 then Ok true else if Nat.eqb (if full then 2 else 1) 1 then Ok false else Raise ValueError) with (Ok full) by (destruct full; reflexivity).
  cbn [bind]. set (nd1 := option_map _ (p_dde1 a)). set (nd2 := option_map _ (p_dde2 a)). set (nx := option_map _ (p_coh a)).
  set (ng1 := option_map _ (p_die1 a)). set (ng2 := option_map _ (p_die2 a)). set (nb := option_map _ (p_bvis a)).
  assert (CK : exists fl, predict_checks 1 1 1 nd1 nx nd2 ng1 nb ng2 = Ok fl).
  { assert (N1 : nd1 = match p_dde1 a with Some _ => Some 5 | None => None end).
    { subst nd1. destruct P1 as [P1 P1']. destruct (p_dde1 a) as [e|] eqn:E; [|reflexivity]. destruct (p_dde2 a); [|discriminate (P1' eq_refl)].
      destruct (sh_dde1 _ _ _ _ _ Sh _ E) as (D & _). cbn. rewrite D. destruct full; reflexivity. }
    assert (N2 : nd2 = match p_dde2 a with Some _ => Some 5 | None => None end).
    { subst nd2. rewrite N1. destruct P1 as [P1 P1']. destruct (p_dde2 a) as [e|] eqn:E; [|reflexivity]. destruct (p_dde1 a); [reflexivity|discriminate (P1 eq_refl)]. }
    assert (N3 : nx = match p_coh a with Some _ => Some 4 | None => None end).
    { subst nx. destruct (p_coh a) as [e|] eqn:E; [|reflexivity]. destruct (sh_coh _ _ _ _ _ Sh _ E) as (D & _). cbn. rewrite D. destruct full; reflexivity. }
    assert (N4 : ng1 = match p_die1 a with Some _ => Some 4 | None => None end).
    { subst ng1. destruct P2 as [P2 P2']. destruct (p_die1 a) as [e|] eqn:E; [|reflexivity]. destruct (p_die2 a); [|discriminate (P2' eq_refl)].
      destruct (sh_die1 _ _ _ _ _ Sh _ E) as (D & _). cbn. rewrite D. destruct full; reflexivity. }
    assert (N5 : ng2 = match p_die2 a with Some _ => Some 4 | None => None end).
    { subst ng2. rewrite N4. destruct P2 as [P2 P2']. destruct (p_die2 a) as [e|] eqn:E; [|reflexivity]. destruct (p_die1 a); [reflexivity|discriminate (P2 eq_refl)]. }
    assert (N6 : nb = match p_bvis a with Some _ => Some 3 | None => None end).
    { subst nb. destruct (p_bvis a) as [e|] eqn:E; [|reflexivity]. destruct (sh_bvis _ _ _ _ _ Sh _ E) as (D & _). cbn. rewrite D. destruct full; reflexivity. }
    rewrite N1, N2, N3, N4, N5, N6. destruct P1 as [P1 P1'], P2 as [P2 P2'].
    destruct (p_dde1 a), (p_dde2 a); try discriminate (P1 eq_refl); try discriminate (P1' eq_refl);
    destruct (p_die1 a), (p_die2 a); try discriminate (P2 eq_refl); try discriminate (P2' eq_refl);
    destruct (p_coh a), (p_bvis a); eexists; reflexivity. }
  destruct CK as [fl ->]. cbn [bind fst snd negb]. fold corrs. set (bd := if double then 24 else 32).
  assert (Bp : 0 < bd) by (unfold bd; destruct double; lia).
  assert (GE : grids [Z.of_nat (nchan * corrs); Z.of_nat (p_nrow a); 1%Z] [Z.of_nat warp_size; Z.of_nat bd; 1%Z] =
    Ok [((Z.of_nat (nchan * corrs) + 32 - 1) / 32)%Z; ((Z.of_nat (p_nrow a) + Z.of_nat bd - 1) / Z.of_nat bd)%Z; 1%Z]).
  { unfold bd. destruct double; reflexivity. }
  rewrite GE. cbn [bind nth]. destruct (Nat.eqb_spec (p_nrow a) 0); [lia|]. rewrite KN. cbn [bind]. rewrite Jm. cbn [negb].
  destruct (kernel_time_na a x) as [ntime na] eqn:KT.
  eexists. split; [reflexivity|]. cbn [v_ndim v_row v_chan v_corr v_at]. do 4 (split; [reflexivity|]).
  intros tmin Hmin r f i j Hr Hf Hc. set (c := if full then i * ncorr + j else i) in *.
  set (k := {| k_nrow := _ |}).
  assert (T : Z.to_nat (p_time a r - tmin) = zmin_index (p_nrow a) (p_time a) r).
  { unfold zmin_index. now rewrite <- (is_min_unique _ _ _ _ (zmin_is_min _ (p_time a) Hn) Hmin). }
  rewrite T. set (cc := f * corrs + c). assert (CC : cc < nchan * corrs) by (unfold cc; nia).
  assert (RV : ravel [p_nrow a; nchan; corrs] [r; f; c] = r * (k_nchan k * k_corrs k) + cc)
    by (cbn [ravel prodn k k_nchan k_corrs]; unfold cc; ring).
  rewrite RV. clear RV.
  destruct Ix as [IxE Ix]. specialize (Ix tmin r Hmin Hr). cbn zeta in Ix. rewrite T in Ix. destruct Ix as [IxD IxG].
  change (zmin_index (p_nrow a) (p_time a) r) with (k_time k r).
  apply run_all; [exact CC|exact Hr|exact Bp|..].
  - apply Sc. unfold launched. fold bd. repeat split.
    + apply Nat2Z.inj_lt. rewrite Z2Nat.id by (apply Z.div_pos; lia). rewrite Nat2Z.inj_div. change (Z.of_nat 32) with 32%Z.
      apply Z.div_lt_upper_bound; [lia|]. pose proof (Z.mod_pos_bound (Z.of_nat (nchan * corrs) + 32 - 1) 32 ltac:(lia)).
      pose proof (Z.div_mod (Z.of_nat (nchan * corrs) + 32 - 1) 32 ltac:(lia)). lia.
    + apply Nat2Z.inj_lt. rewrite Z2Nat.id by (apply Z.div_pos; lia). rewrite Nat2Z.inj_div.
      apply Z.div_lt_upper_bound; [lia|]. pose proof (Z.mod_pos_bound (Z.of_nat (p_nrow a) + Z.of_nat bd - 1) (Z.of_nat bd) ltac:(lia)).
      pose proof (Z.div_mod (Z.of_nat (p_nrow a) + Z.of_nat bd - 1) (Z.of_nat bd) ltac:(lia)). lia.
    + apply Nat.mod_upper_bound. lia.
  - intros bx ->. destruct Vw as [Vr Vt V1 V2 Vd1 Vd2 Vx Vg1 Vg2 Vb].
    apply (kernel_at m k a' und r (cc / 32 * 32)) with (f := f) (c := c).
    + exact Hm.
    + exact Hp.
    + exists (cc / 32). lia.
    + now rewrite V1.
    + now rewrite V2.
    + subst k. unfold cell, stored. cbn [k_nrow k_nchan k_corrs k_nsrc k_ntime k_na k_time k_ant1 k_ant2 k_dde1 k_dde2 k_coh k_bvis k_die1 k_die2].
      destruct (p_dde1 a) as [e|] eqn:E, (p_dde1 a') as [e'|]; try contradiction; cbn [option_map]; auto.
      destruct Vd1 as [NS VV]. destruct (sh_dde1 _ _ _ _ _ Sh _ E) as (D1 & D2 & D3 & D4).
      assert (Some1 : p_dde1 a <> None) by (first [congruence | intros Q; apply P1 in Q; congruence]).
      assert (Some2 : p_dde2 a <> None) by (first [congruence | intros Q; apply P1 in Q; congruence]).
      assert (Ek : kernel_nsrc a = nsrc) by (unfold kernel_nsrc; destruct (p_dde1 a) as [e1|] eqn:E1; [|congruence]; destruct (p_dde2 a); [|congruence]; now destruct (sh_dde1 _ _ _ _ _ Sh _ E1) as (_ & ? & _)).
      assert (KX : x_dde x = (ntime, na)) by (unfold kernel_time_na in KT; destruct (p_dde1 a); [|congruence]; destruct (p_dde2 a); [exact KT|congruence]).
      rewrite Ek. split; [congruence|]. intros s Hs f' c' Hf' Hc'.
      destruct IxD as (I1 & I2 & I3); [congruence|]. rewrite KX in *. cbn [fst snd] in *.
      rewrite D2, D3. erewrite flat_at with (idx := [s; zmin_index (p_nrow a) (p_time a) r; p_ant1 a r; f'; c']).
      * apply VV. exact Hc'.
      * repeat constructor; auto.
      * cbn [ravel prodn]. ring.
    + subst k. unfold cell, stored. cbn [k_nrow k_nchan k_corrs k_nsrc k_ntime k_na k_time k_ant1 k_ant2 k_dde1 k_dde2 k_coh k_bvis k_die1 k_die2].
      destruct (p_dde2 a) as [e|] eqn:E, (p_dde2 a') as [e'|]; try contradiction; cbn [option_map]; auto.
      destruct Vd2 as [NS VV]. destruct (sh_dde2 _ _ _ _ _ Sh _ E) as (D1 & D2 & D3 & D4).
      assert (Some1 : p_dde1 a <> None) by (first [congruence | intros Q; apply P1 in Q; congruence]).
      assert (Some2 : p_dde2 a <> None) by (first [congruence | intros Q; apply P1 in Q; congruence]).
      assert (Ek : kernel_nsrc a = nsrc) by (unfold kernel_nsrc; destruct (p_dde1 a) as [e1|] eqn:E1; [|congruence]; destruct (p_dde2 a); [|congruence]; now destruct (sh_dde1 _ _ _ _ _ Sh _ E1) as (_ & ? & _)).
      assert (KX : x_dde x = (ntime, na)) by (unfold kernel_time_na in KT; destruct (p_dde1 a); [|congruence]; destruct (p_dde2 a); [exact KT|congruence]).
      rewrite Ek. split; [congruence|]. intros s Hs f' c' Hf' Hc'.
      destruct IxD as (I1 & I2 & I3); [congruence|]. rewrite KX in *. cbn [fst snd] in *.
      rewrite D2, D3. erewrite flat_at with (idx := [s; zmin_index (p_nrow a) (p_time a) r; p_ant2 a r; f'; c']).
      * apply VV. exact Hc'.
      * repeat constructor; auto.
      * cbn [ravel prodn]. ring.
    + subst k. unfold cell, stored. cbn [k_nrow k_nchan k_corrs k_nsrc k_ntime k_na k_time k_ant1 k_ant2 k_dde1 k_dde2 k_coh k_bvis k_die1 k_die2].
      destruct (p_coh a) as [e|] eqn:E, (p_coh a') as [e'|]; try contradiction; cbn [option_map]; auto.
      destruct Vx as [NS VV]. destruct (sh_coh _ _ _ _ _ Sh _ E) as (D1 & D2 & D3 & D4 & D5).
      assert (Ek : kernel_nsrc a = nsrc) by (unfold kernel_nsrc; rewrite E; destruct (p_dde1 a) as [e1|] eqn:E1; [destruct (p_dde2 a); [now destruct (sh_dde1 _ _ _ _ _ Sh _ E1) as (_ & ? & _)|]|]; exact D2).
      rewrite Ek. split; [congruence|]. intros s Hs f' c' Hf' Hc'.
      rewrite D2, D3, D4. erewrite flat_at with (idx := [s; r; f'; c']).
      * apply VV. exact Hc'.
      * repeat constructor; auto.
      * cbn [ravel prodn]. ring.
    + subst k. unfold cell, stored. cbn [k_nrow k_nchan k_corrs k_nsrc k_ntime k_na k_time k_ant1 k_ant2 k_dde1 k_dde2 k_coh k_bvis k_die1 k_die2].
      destruct (p_bvis a) as [e|] eqn:E, (p_bvis a') as [e'|]; try contradiction; cbn [option_map]; auto.
      destruct (sh_bvis _ _ _ _ _ Sh _ E) as (D1 & D2 & D3 & D4). intros f' c' Hf' Hc'.
      rewrite D2, D3. erewrite flat_at with (idx := [r; f'; c']).
      * apply Vb. exact Hc'.
      * repeat constructor; auto.
      * cbn [ravel prodn]. ring.
    + subst k. unfold cell, stored. cbn [k_nrow k_nchan k_corrs k_nsrc k_ntime k_na k_time k_ant1 k_ant2 k_dde1 k_dde2 k_coh k_bvis k_die1 k_die2].
      destruct (p_die1 a) as [e|] eqn:E, (p_die1 a') as [e'|]; try contradiction; cbn [option_map]; auto.
      destruct (sh_die1 _ _ _ _ _ Sh _ E) as (D1 & D2 & D3).
      assert (Some1 : p_die1 a <> None) by (first [congruence | intros Q; apply P2 in Q; congruence]).
      assert (KX : x_die x = (ntime, na)) by (unfold kernel_time_na in KT; destruct P1 as [P1 P1']; destruct (p_dde1 a); [destruct (p_dde2 a); [|discriminate (P1' eq_refl)]; rewrite <- IxE by congruence; exact KT|exact KT]).
      intros f' c' Hf' Hc'.
      destruct IxG as (I1 & I2 & I3); [congruence|]. rewrite KX in *. cbn [fst snd] in *.
      rewrite D2. erewrite flat_at with (idx := [zmin_index (p_nrow a) (p_time a) r; p_ant1 a r; f'; c']).
      * apply Vg1. exact Hc'.
      * repeat constructor; auto.
      * cbn [ravel prodn]. ring.
    + subst k. unfold cell, stored. cbn [k_nrow k_nchan k_corrs k_nsrc k_ntime k_na k_time k_ant1 k_ant2 k_dde1 k_dde2 k_coh k_bvis k_die1 k_die2].
      destruct (p_die2 a) as [e|] eqn:E, (p_die2 a') as [e'|]; try contradiction; cbn [option_map]; auto.
      destruct (sh_die2 _ _ _ _ _ Sh _ E) as (D1 & D2 & D3).
      assert (Some1 : p_die1 a <> None) by (first [congruence | intros Q; apply P2 in Q; congruence]).
      assert (KX : x_die x = (ntime, na)) by (unfold kernel_time_na in KT; destruct P1 as [P1 P1']; destruct (p_dde1 a); [destruct (p_dde2 a); [|discriminate (P1' eq_refl)]; rewrite <- IxE by congruence; exact KT|exact KT]).
      intros f' c' Hf' Hc'.
      destruct IxG as (I1 & I2 & I3); [congruence|]. rewrite KX in *. cbn [fst snd] in *.
      rewrite D2. erewrite flat_at with (idx := [zmin_index (p_nrow a) (p_time a) r; p_ant2 a r; f'; c']).
      * apply Vg2. exact Hc'.
      * repeat constructor; auto.
      * cbn [ravel prodn]. ring.
    + destruct P1 as [P1 P1']. destruct (p_dde1 a), (p_dde1 a'); try contradiction; destruct (p_dde2 a), (p_dde2 a'); try contradiction;
        try discriminate (P1 eq_refl); try discriminate (P1' eq_refl); split; congruence.
    + apply Nat.mod_upper_bound. lia.
    + exact Hf.
    + exact Hc.
    + change (k_corrs k) with corrs. fold cc. rewrite Nat.mul_comm. symmetry. apply Nat.div_mod. lia.
Qed.

Lemma view_same full ncorr a : (full = true -> ncorr = 2) -> view full ncorr (flat_corrs full ncorr) full a a.
Proof.
  intros H. assert (S : forall J, same_corrs full ncorr (flat_corrs full ncorr) full J J).
  { intros J c _. unfold corr_at. destruct full; [now rewrite H|reflexivity]. }
  constructor; auto; match goal with |- match ?x with _ => _ end => destruct x; auto end.
Qed.
Lemma as_matrix_same J : same_corrs false 4 4 true J (as_matrix J).
Proof. intros c Hc. unfold corr_at, as_matrix. f_equal. apply Nat.div_mod. lia. Qed.
Lemma view_four a : view false 4 4 true a (as_matrices a).
Proof.
  constructor; auto; cbn [as_matrices p_dde1 p_dde2 p_coh p_die1 p_die2 p_bvis]; match goal with |- match ?x with _ => _ end => destruct x; cbn [option_map]; auto end.
  all: try (split; [reflexivity|]); intros; apply as_matrix_same.
Qed.

(* the allowed numbers of correlations *)
Theorem cuda_measurement full nsrc nchan ncorr double x order und garbage a :
  shapes full nsrc nchan ncorr a -> (if full then ncorr = 2 else ncorr = 1 \/ ncorr = 2) ->
  paired (p_dde1 a) (p_dde2 a) -> paired (p_die1 a) (p_die2 a) -> more_than_base a -> 0 < p_nrow a ->
  indices_ok x a -> any_schedule double order ->
  exists out, cuda_predict_vis (true, true, true) double x order und garbage a = Ok out /\
    v_ndim out = (if full then 4 else 3) /\ v_row out = p_nrow a /\ v_chan out = nchan /\ v_corr out = ncorr /\
    forall tmin, is_min (p_nrow a) (p_time a) tmin -> forall r f, r < p_nrow a -> f < nchan ->
      jeq full ncorr (v_at out r f) (measurement full (Z.to_nat (p_time a r - tmin)) a r f).
Proof.
  intros Sh Hc P1 P2 Mo Hn Ix Sc.
  destruct (cuda_core full nsrc nchan ncorr full double x order und garbage a a) as (out & E & N1 & N2 & N3 & N4 & V); auto.
  - apply view_same. intros ->. exact Hc.
  - destruct full; cbn in *; lia.
  - destruct full; cbn in *; lia.
  - unfold jm_ok. destruct full; cbn [flat_corrs]; [rewrite Hc; reflexivity|destruct Hc as [-> | ->]; reflexivity].
  - exists out. split; [exact E|]. do 4 (split; [assumption|]). intros tmin Hm r f Hr Hf i j C.
    rewrite (V tmin Hm r f i j Hr Hf).
    + destruct full; cbn [corr_ok corr_at] in *.
      * destruct C as [I J]. rewrite Hc. f_equal; [now rewrite Nat.div_add_l, Nat.div_small, Nat.add_0_r by lia|now rewrite Nat.add_comm, Nat.mod_add, Nat.mod_small by lia].
      * destruct C as [I ->]. reflexivity.
    + destruct full; cbn [corr_ok flat_corrs] in *; [|lia]. destruct C. rewrite Hc. lia.
Qed.
Theorem cuda_four nsrc nchan double x order und garbage a :
  shapes false nsrc nchan 4 a -> paired (p_dde1 a) (p_dde2 a) -> paired (p_die1 a) (p_die2 a) -> more_than_base a -> 0 < p_nrow a ->
  indices_ok x a -> any_schedule double order ->
  exists out, cuda_predict_vis (true, true, true) double x order und garbage a = Ok out /\
    v_ndim out = 3 /\ v_row out = p_nrow a /\ v_chan out = nchan /\ v_corr out = 4 /\
    forall tmin, is_min (p_nrow a) (p_time a) tmin -> forall r f i j, r < p_nrow a -> f < nchan -> i < 2 -> j < 2 ->
      v_at out r f (2 * i + j) 0 = measurement true (Z.to_nat (p_time a r - tmin)) (as_matrices a) r f i j.
Proof.
  intros Sh P1 P2 Mo Hn Ix Sc.
  destruct (cuda_core false nsrc nchan 4 true double x order und garbage a (as_matrices a)) as (out & E & N1 & N2 & N3 & N4 & V); auto.
  - apply view_four.
  - cbn. lia.
  - exists out. split; [exact E|]. do 4 (split; [assumption|]). intros tmin Hm r f i j Hr Hf I J.
    rewrite (V tmin Hm r f (2 * i + j) 0 Hr Hf) by (cbn; lia). unfold corr_at.
    f_equal; [replace (2 * i + j) with (i * 2 + j) by lia; now rewrite Nat.div_add_l, Nat.div_small, Nat.add_0_r by lia|
              replace (2 * i + j) with (j + i * 2) by lia; now rewrite Nat.mod_add, Nat.mod_small by lia].
Qed.
