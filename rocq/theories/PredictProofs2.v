(* predict_vis argument checks; superposition *)
From Coq Require Import Ring Permutation.
From Verif Require Import Prelude PreludeFacts CRing PredictModel PredictSpec PredictProofs.
Open Scope nat_scope.

Lemma in2_spec n a b : in2 n a b = true -> n = a \/ n = b.
Proof. unfold in2. rewrite orb_true_iff, !Nat.eqb_eq. tauto. Qed.

Lemma checks_admissible dde1 coh dde2 die1 bvis die2 :
  admissible dde1 coh dde2 die1 bvis die2 ->
  predict_checks 1 1 1 dde1 coh dde2 die1 bvis die2 =
    Ok (have dde1, have coh, have dde2, have die1, have bvis, have die2).
Proof.
  intros [P1 [P2 [full [D1 [D2 [D3 [D4 [D5 D6]]]]]]]]. unfold predict_checks.
  destruct dde1 as [n1|], dde2 as [n2|];
    try (exfalso; destruct P1 as [P P']; (discriminate (P eq_refl) || discriminate (P' eq_refl)));
  destruct die1 as [g1|], die2 as [g2|];
    try (exfalso; destruct P2 as [P P']; (discriminate (P eq_refl) || discriminate (P' eq_refl)));
  destruct coh as [x|], bvis as [b|]; simpl in D1, D2, D3, D4, D5, D6; subst; destruct full; reflexivity.
Qed.

Lemma checks_inv t a1 a2 dde1 coh dde2 die1 bvis die2 :
  match predict_checks t a1 a2 dde1 coh dde2 die1 bvis die2 with
  | Ok _ => t = 1 /\ a1 = 1 /\ a2 = 1 /\ admissible dde1 coh dde2 die1 bvis die2
  | Raise e => (e = AssertionError /\ ~ (t = 1 /\ a1 = 1 /\ a2 = 1)) \/ (e = ValueError /\ t = 1 /\ a1 = 1 /\ a2 = 1)
  end.
Proof.
  unfold predict_checks.
  destruct (Nat.eqb_spec t 1) as [->|]; [|left; split; [reflexivity|tauto]].
  destruct (Nat.eqb_spec a1 1) as [->|]; [|left; split; [reflexivity|tauto]].
  destruct (Nat.eqb_spec a2 1) as [->|]; [|left; split; [reflexivity|tauto]]. cbn [andb negb].
  assert (V : forall e, e = ValueError -> (e = AssertionError /\ ~ (1 = 1 /\ 1 = 1 /\ 1 = 1)) \/ (e = ValueError /\ 1 = 1 /\ 1 = 1 /\ 1 = 1)) by tauto.
  destruct (xorb (have dde1) (have dde2)) eqn:X1; [tauto|].
  destruct (xorb (have die1) (have die2)) eqn:X2; [tauto|].
  destruct (opt_all dde1 _) eqn:A1; cbn [negb]; [|tauto].
  destruct (opt_all dde2 _) eqn:A2; cbn [negb]; [|tauto].
  destruct (ndim_eq dde1 dde2) eqn:E1; cbn [negb]; [|tauto].
  destruct (opt_all coh _) eqn:A3; cbn [negb]; [|tauto].
  destruct (opt_all die1 _) eqn:A4; cbn [negb]; [|tauto].
  destruct (opt_all bvis _) eqn:A5; cbn [negb]; [|tauto].
  destruct (opt_all die2 _) eqn:A6; cbn [negb]; [|tauto].
  destruct (ndim_eq die1 die2) eqn:E2; cbn [negb]; [|tauto].
  assert (Sat : forall full, dims_ok full dde1 4 -> dims_ok full dde2 4 -> dims_ok full coh 3 ->
      dims_ok full die1 3 -> dims_ok full die2 3 -> dims_ok full bvis 2 ->
      (dde1 = None <-> dde2 = None) -> (die1 = None <-> die2 = None) -> admissible dde1 coh dde2 die1 bvis die2).
  { intros full. unfold admissible. intuition eauto 10. }
  destruct dde1 as [n1|], dde2 as [n2|]; try discriminate; simpl in A1, A2, E1;
    try (apply Nat.eqb_eq in E1; subst n2; apply in2_spec in A1; clear A2);
  destruct die1 as [g1|], die2 as [g2|]; try discriminate; simpl in A4, A6, E2;
    try (apply Nat.eqb_eq in E2; subst g2; apply in2_spec in A4; clear A6);
  destruct coh as [x|]; simpl in A3; try apply in2_spec in A3;
  destruct bvis as [b|]; simpl in A5; try apply in2_spec in A5;
  repeat match goal with H : _ \/ _ |- _ => destruct H end; subst;
  cbn [have andb expected_sizes app];
  match goal with |- context [forallb ?f ?l] => let v := eval vm_compute in (forallb f l) in change (forallb f l) with v | _ => idtac end;
  cbv iota;
  first [ now apply V
        | split; [reflexivity|split; [reflexivity|split; [reflexivity|]]];
          first [ apply (Sat true); solve [simpl; tauto | split; (reflexivity || discriminate)]
                | apply (Sat false); solve [simpl; tauto | split; (reflexivity || discriminate)] ] ].
Qed.

Lemma jones_type_admissible dde1 coh dde2 die1 bvis die2 :
  admissible dde1 coh dde2 die1 bvis die2 ->
  match jones_type_of dde1 coh dde2 die1 bvis die2 with
  | Ok _ => dde1 <> None \/ coh <> None \/ die1 <> None \/ bvis <> None
  | Raise e => e = ValueError /\ dde1 = None /\ coh = None /\ die1 = None /\ bvis = None
  end.
Proof.
  intros [P1 [P2 [full [D1 [D2 [D3 [D4 [D5 D6]]]]]]]].
  destruct dde1 as [n1|], dde2 as [n2|];
    try (exfalso; destruct P1 as [P P']; (discriminate (P eq_refl) || discriminate (P' eq_refl)));
  destruct die1 as [g1|], die2 as [g2|];
    try (exfalso; destruct P2 as [P P']; (discriminate (P eq_refl) || discriminate (P' eq_refl)));
  destruct coh as [x|], bvis as [b|]; simpl in D1, D2, D3, D4, D5, D6; subst; destruct full;
  vm_compute; repeat split; first [left; discriminate | right; left; discriminate | right; right; left; discriminate | right; right; right; discriminate].
Qed.

Section Accept.
  Context {K : cops}.
  Lemma map_none {A B} (f : A -> B) x : option_map f x = None <-> x = None.
  Proof. destruct x; simpl; split; congruence. Qed.
  Theorem predict_accepts (a : predict_in K) :
    match predict_vis a with
    | Ok _ => ndims_admissible a /\ supplied a /\ 0 < p_nrow a
    | Raise e => e = ValueError /\ ~ (ndims_admissible a /\ supplied a /\ 0 < p_nrow a)
    end.
  Proof.
    unfold predict_vis, ndims_admissible, supplied.
    set (o1 := option_map d_ndim (p_dde1 a)). set (o2 := option_map h_ndim (p_coh a)).
    set (o3 := option_map d_ndim (p_dde2 a)). set (o4 := option_map g_ndim (p_die1 a)).
    set (o5 := option_map v_ndim (p_bvis a)). set (o6 := option_map g_ndim (p_die2 a)).
    pose proof (checks_inv 1 1 1 o1 o2 o3 o4 o5 o6) as C.
    destruct (predict_checks 1 1 1 o1 o2 o3 o4 o5 o6) as [fl|e] eqn:E; cbn [bind].
    2:{ destruct C as [[_ C]|[-> _]]; [tauto|]. split; [reflexivity|]. intros [A _].
        rewrite (checks_admissible _ _ _ _ _ _ A) in E. discriminate. }
    destruct C as [_ [_ [_ A]]]. pose proof (jones_type_admissible _ _ _ _ _ _ A) as J.
    destruct (jones_type_of o1 o2 o3 o4 o5 o6) as [jt|e]; cbn [bind].
    2:{ destruct J as [-> [J1 [J2 [J3 J4]]]]. split; [reflexivity|].
        apply map_none in J1, J2, J3, J4. intros [_ [S _]]. intuition congruence. }
    assert (S : p_dde1 a <> None \/ p_coh a <> None \/ p_die1 a <> None \/ p_bvis a <> None).
    { assert (N : forall {A B} (f : A -> B) x, option_map f x <> None -> x <> None) by (intros X Y f [x|]; simpl; congruence).
      destruct J as [J|[J|[J|J]]]; apply N in J; tauto. }
    assert (P1 : p_dde1 a = None <-> p_dde2 a = None).
    { destruct A as [A _]. unfold o1, o3 in A. rewrite !map_none in A. exact A. }
    assert (P2 : p_die1 a = None <-> p_die2 a = None).
    { destruct A as [_ [A _]]. unfold o4, o6 in A. rewrite !map_none in A. exact A. }
    assert (O : exists r c k, output_shape a = Ok (r, c, k)).
    { unfold output_shape. destruct (p_dde1 a), (p_dde2 a);
        try (exfalso; destruct P1 as [P P']; (discriminate (P eq_refl) || discriminate (P' eq_refl))); [eauto|].
      destruct (p_coh a); [eauto|]. destruct (p_die1 a), (p_die2 a);
        try (exfalso; destruct P2 as [P P']; (discriminate (P eq_refl) || discriminate (P' eq_refl))); [eauto|].
      destruct (p_bvis a); [eauto|]. exfalso. intuition congruence. }
    destruct O as [r [c [k O]]]. rewrite O. cbn [bind].
    destruct (Nat.eqb_spec (p_nrow a) 0) as [Z|Z].
    - split; [reflexivity|]. lia.
    - split; [exact A|]. split; [exact S|lia].
  Qed.
End Accept.

(* ---------- superposition ---------- *)
Section Super.
  Context {K : cops} (L : claws K).
  Add Ring Kring : (law_ring K L).
  Open Scope K_scope.

  Lemma jsum_cat n m (f g : nat -> jones K) i j :
    jsum (n + m) (fun s => if Nat.ltb s n then f s else g (s - n)%nat) i j = jsum n f i j + jsum m g i j.
  Proof.
    unfold jsum. rewrite (csum_split L). f_equal; apply csum_ext; intros s Hs.
    - destruct (Nat.ltb_spec s n); [reflexivity|lia].
    - destruct (Nat.ltb_spec (n + s) n); [lia|]. replace (n + s - n)%nat with s by lia. reflexivity.
  Qed.

  Lemma source_term_cat full t (a b : predict_in K) r f i j :
    p_ant1 b = p_ant1 a -> p_ant2 b = p_ant2 a ->
    paired (p_dde1 a) (p_dde2 a) -> paired (p_dde1 a) (p_dde1 b) -> paired (p_dde2 a) (p_dde2 b) -> paired (p_coh a) (p_coh b) ->
    (forall e e', p_dde1 a = Some e -> p_dde2 a = Some e' -> d_src e' = d_src e) ->
    (forall e e', p_dde1 a = Some e -> p_coh a = Some e' -> h_src e' = d_src e) ->
    source_term full t (with_sky a (cat_opt cat_dde (p_dde1 a) (p_dde1 b)) (cat_opt cat_coh (p_coh a) (p_coh b))
        (cat_opt cat_dde (p_dde2 a) (p_dde2 b))) r f i j =
    source_term full t a r f i j + source_term full t b r f i j.
  Proof.
    intros A1 A2 P1 P2 P3 P4 N1 N2. unfold source_term, paired in *. cbn [p_ant1 p_ant2 p_dde1 p_dde2 p_coh with_sky]. rewrite A1, A2.
    destruct (p_dde1 a) as [e1|], (p_dde2 a) as [e2|];
      try (exfalso; destruct P1 as [P P']; (discriminate (P eq_refl) || discriminate (P' eq_refl)));
    destruct (p_dde1 b) as [d1|];
      try (exfalso; destruct P2 as [P P']; (discriminate (P eq_refl) || discriminate (P' eq_refl)));
    destruct (p_dde2 b) as [d2|];
      try (exfalso; destruct P3 as [P P']; (discriminate (P eq_refl) || discriminate (P' eq_refl)));
    destruct (p_coh a) as [x|], (p_coh b) as [y|];
      try (exfalso; destruct P4 as [P P']; (discriminate (P eq_refl) || discriminate (P' eq_refl))); cbn [cat_opt].
    - rewrite <- jsum_cat. cbn [d_src cat_dde]. unfold jsum. apply csum_ext. intros s Hs.
      cbn [d_at h_at cat_dde cat_coh]. rewrite (N1 e1 e2 eq_refl eq_refl), (N2 e1 x eq_refl eq_refl).
      destruct (Nat.ltb s (d_src e1)); reflexivity.
    - rewrite <- jsum_cat. cbn [d_src cat_dde]. unfold jsum. apply csum_ext. intros s Hs.
      cbn [d_at cat_dde]. rewrite (N1 e1 e2 eq_refl eq_refl).
      destruct (Nat.ltb s (d_src e1)); reflexivity.
    - rewrite <- jsum_cat. cbn [h_src cat_coh]. unfold jsum. apply csum_ext. intros s Hs.
      cbn [h_at cat_coh]. destruct (Nat.ltb s (h_src x)); reflexivity.
    - unfold jzero. ring.
  Qed.

  Theorem superposition full n1 n2 nchan ncorr (a b : predict_in K) :
    shapes full n1 nchan ncorr a -> shapes full n2 nchan ncorr b ->
    p_nrow b = p_nrow a -> p_time b = p_time a -> p_ant1 b = p_ant1 a -> p_ant2 b = p_ant2 a ->
    paired (p_dde1 a) (p_dde2 a) -> paired (p_dde1 a) (p_dde1 b) -> paired (p_dde2 a) (p_dde2 b) -> paired (p_coh a) (p_coh b) ->
    p_die1 a = None -> p_die2 a = None -> p_die1 b = None -> p_die2 b = None -> p_bvis a = None -> p_bvis b = None ->
    supplied a -> 0 < p_nrow a ->
    exists va vb vc, predict_vis a = Ok va /\ predict_vis b = Ok vb /\
      predict_vis (with_sky a (cat_opt cat_dde (p_dde1 a) (p_dde1 b)) (cat_opt cat_coh (p_coh a) (p_coh b))
                              (cat_opt cat_dde (p_dde2 a) (p_dde2 b))) = Ok vc /\
      forall r f, r < p_nrow a -> f < nchan ->
        jeq full ncorr (v_at vc r f) (jadd (v_at va r f) (v_at vb r f)).
  Proof.
    intros Sa Sb E1 E2 E3 E4 P1 P2 P3 P4 G1 G2 G3 G4 B1 B2 Sup Hn.
    set (c := with_sky _ _ _ _).
    assert (P1b : paired (p_dde1 b) (p_dde2 b)) by (unfold paired in *; tauto).
    assert (Sc : shapes full (n1 + n2) nchan ncorr c).
    { destruct Sa as [S1 S2 S3 S4 S5 S6]. destruct Sb as [T1 T2 T3 T4 T5 T6].
      constructor; cbn [p_dde1 p_dde2 p_coh p_die1 p_die2 p_bvis p_nrow c with_sky].
      - intros e H. destruct (p_dde1 a) as [x|]; [|discriminate]. destruct (p_dde1 b) as [y|]; [|discriminate].
        injection H as <-. cbn. destruct (S1 x eq_refl) as [? [-> ?]]. destruct (T1 y eq_refl) as [? [-> ?]]. tauto.
      - intros e H. destruct (p_dde2 a) as [x|]; [|discriminate]. destruct (p_dde2 b) as [y|]; [|discriminate].
        injection H as <-. cbn. destruct (S2 x eq_refl) as [? [-> ?]]. destruct (T2 y eq_refl) as [? [-> ?]]. tauto.
      - intros e H. destruct (p_coh a) as [x|]; [|discriminate]. destruct (p_coh b) as [y|]; [|discriminate].
        injection H as <-. cbn. destruct (S3 x eq_refl) as [? [-> ?]]. destruct (T3 y eq_refl) as [? [-> ?]]. tauto.
      - exact S4. - exact S5. - exact S6. }
    assert (P1c : paired (p_dde1 c) (p_dde2 c)).
    { unfold c, with_sky, paired in *. cbn.
      destruct (p_dde1 a), (p_dde2 a), (p_dde1 b), (p_dde2 b); cbn; intuition congruence. }
    assert (Pg : forall x : predict_in K, p_die1 x = None -> p_die2 x = None -> paired (p_die1 x) (p_die2 x)).
    { intros x -> ->. unfold paired. tauto. }
    assert (Supb : supplied b).
    { unfold supplied, paired in *. rewrite G3, B2. rewrite G1, B1 in Sup. tauto. }
    assert (Supc : supplied c).
    { unfold supplied, paired in *. unfold c, with_sky. cbn. rewrite G1, B1 in Sup.
      destruct (p_dde1 a), (p_dde1 b), (p_coh a), (p_coh b); cbn; intuition congruence. }
    destruct (predict_vis_spec L full n1 nchan ncorr a Sa P1 (Pg a G1 G2) Sup Hn) as [va [Va [_ [_ [_ [_ Fa]]]]]].
    destruct (predict_vis_spec L full n2 nchan ncorr b Sb P1b (Pg b G3 G4) Supb ltac:(lia)) as [vb [Vb [_ [_ [_ [_ Fb]]]]]].
    destruct (predict_vis_spec L full (n1 + n2) nchan ncorr c Sc P1c (Pg c G1 G2) Supc Hn) as [vc [Vc [_ [_ [_ [_ Fc]]]]]].
    exists va, vb, vc. split; [exact Va|]. split; [exact Vb|]. split; [exact Vc|].
    intros r f Hr Hf i j C.
    set (tm := zmin (p_nrow a) (p_time a)).
    assert (Hm : is_min (p_nrow a) (p_time a) tm) by (now apply zmin_is_min).
    unfold jadd. rewrite (Fa tm Hm r f Hr Hf i j C).
    rewrite (Fc tm Hm r f Hr Hf i j C).
    rewrite E1, E2 in Fb. rewrite (Fb tm Hm r f Hr Hf i j C).
    unfold measurement. rewrite G1, G3, B1, B2.
    change (p_die1 c) with (p_die1 a). change (p_bvis c) with (p_bvis a). rewrite G1, B1.
    change (p_time c) with (p_time a). unfold jadd, jzero.
    unfold c. rewrite source_term_cat; try assumption.
    - ring.
    - intros e e' H H'. destruct (sh_dde1 _ _ _ _ _ Sa e H) as [_ [-> _]]. now destruct (sh_dde2 _ _ _ _ _ Sa e' H') as [_ [-> _]].
    - intros e e' H H'. destruct (sh_dde1 _ _ _ _ _ Sa e H) as [_ [-> _]]. now destruct (sh_coh _ _ _ _ _ Sa e' H') as [_ [-> _]].
  Qed.

  Theorem reorder full nsrc nchan ncorr (a : predict_in K) p :
    shapes full nsrc nchan ncorr a -> paired (p_dde1 a) (p_dde2 a) -> paired (p_die1 a) (p_die2 a) ->
    supplied a -> 0 < p_nrow a -> Permutation (map p (seq 0 nsrc)) (seq 0 nsrc) ->
    exists va vb, predict_vis a = Ok va /\
      predict_vis (with_sky a (option_map (perm_dde p) (p_dde1 a)) (option_map (perm_coh p) (p_coh a))
                              (option_map (perm_dde p) (p_dde2 a))) = Ok vb /\
      forall r f, r < p_nrow a -> f < nchan -> jeq full ncorr (v_at vb r f) (v_at va r f).
  Proof.
    intros Sa P1 P2 Sup Hn Hp. set (b := with_sky _ _ _ _).
    assert (Sb : shapes full nsrc nchan ncorr b).
    { destruct Sa as [S1 S2 S3 S4 S5 S6].
      constructor; cbn [p_dde1 p_dde2 p_coh p_die1 p_die2 p_bvis p_nrow b with_sky]; auto.
      - intros e H. destruct (p_dde1 a) as [x|]; [|discriminate]. injection H as <-. exact (S1 x eq_refl).
      - intros e H. destruct (p_dde2 a) as [x|]; [|discriminate]. injection H as <-. exact (S2 x eq_refl).
      - intros e H. destruct (p_coh a) as [x|]; [|discriminate]. injection H as <-. exact (S3 x eq_refl). }
    assert (P1b : paired (p_dde1 b) (p_dde2 b)).
    { unfold paired, b, with_sky in *. cbn. rewrite !map_none. exact P1. }
    assert (Supb : supplied b).
    { unfold supplied, b, with_sky in *. cbn. rewrite !map_none. exact Sup. }
    destruct (predict_vis_spec L full nsrc nchan ncorr a Sa P1 P2 Sup Hn) as [va [Va [_ [_ [_ [_ Fa]]]]]].
    destruct (predict_vis_spec L full nsrc nchan ncorr b Sb P1b P2 Supb Hn) as [vb [Vb [_ [_ [_ [_ Fb]]]]]].
    exists va, vb. split; [exact Va|]. split; [exact Vb|]. intros r f Hr Hf i j C.
    set (tm := zmin (p_nrow a) (p_time a)).
    assert (Hm : is_min (p_nrow a) (p_time a) tm) by (now apply zmin_is_min).
    rewrite (Fa tm Hm r f Hr Hf i j C), (Fb tm Hm r f Hr Hf i j C).
    unfold measurement. change (p_die1 b) with (p_die1 a). change (p_die2 b) with (p_die2 a).
    change (p_bvis b) with (p_bvis a). change (p_time b) with (p_time a).
    change (p_ant1 b) with (p_ant1 a). change (p_ant2 b) with (p_ant2 a).
    set (t := Z.to_nat (p_time a r - tm)).
    assert (ST : jeq full ncorr (source_term full t b r f) (source_term full t a r f)).
    { intros i' j' _. unfold source_term, b, with_sky. cbn [p_ant1 p_ant2 p_dde1 p_dde2 p_coh].
      destruct (p_dde1 a) as [e1|] eqn:Ed1, (p_dde2 a) as [e2|] eqn:Ed2;
        try (exfalso; destruct P1 as [P P']; (discriminate (P eq_refl) || discriminate (P' eq_refl)));
      destruct (p_coh a) as [x|] eqn:Ex; cbn [option_map]; try reflexivity.
      - destruct (sh_dde1 _ _ _ _ _ Sa e1 Ed1) as [_ [N _]]. unfold jsum. cbn [d_src d_at h_at perm_dde perm_coh]. rewrite N.
        exact (csum_perm L nsrc (fun s => sandwich full (d_at e1 s t (p_ant1 a r) f) (h_at x s r f) (d_at e2 s t (p_ant2 a r) f) i' j') p Hp).
      - destruct (sh_dde1 _ _ _ _ _ Sa e1 Ed1) as [_ [N _]]. unfold jsum. cbn [d_src d_at h_at perm_dde perm_coh]. rewrite N.
        exact (csum_perm L nsrc (fun s => sandwich full (d_at e1 s t (p_ant1 a r) f) (jone full) (d_at e2 s t (p_ant2 a r) f) i' j') p Hp).
      - destruct (sh_coh _ _ _ _ _ Sa x Ex) as [_ [N _]]. unfold jsum. cbn [h_src h_at perm_coh]. rewrite N.
        exact (csum_perm L nsrc (fun s => h_at x s r f i' j') p Hp). }
    assert (IN : jeq full ncorr (jadd (source_term full t b r f) match p_bvis a with Some b0 => v_at b0 r f | None => jzero end)
                                (jadd (source_term full t a r f) match p_bvis a with Some b0 => v_at b0 r f | None => jzero end)).
    { intros i' j' C'. unfold jadd. now rewrite ST. }
    destruct (p_die1 a), (p_die2 a); try exact (IN i j C). exact (sandwich_ext full ncorr _ _ _ _ IN i j C).
  Qed.
End Super.

Lemma checks_decide t a1 a2 dde1 coh dde2 die1 bvis die2 :
  match predict_checks t a1 a2 dde1 coh dde2 die1 bvis die2 with
  | Ok _ => t = 1 /\ a1 = 1 /\ a2 = 1 /\ admissible dde1 coh dde2 die1 bvis die2
  | Raise e => (e = AssertionError /\ ~ (t = 1 /\ a1 = 1 /\ a2 = 1)) \/
               (e = ValueError /\ ~ admissible dde1 coh dde2 die1 bvis die2)
  end.
Proof.
  pose proof (checks_inv t a1 a2 dde1 coh dde2 die1 bvis die2) as H.
  destruct (predict_checks t a1 a2 dde1 coh dde2 die1 bvis die2) as [x|e] eqn:E; [exact H|].
  destruct H as [H|[-> [-> [-> ->]]]]; [left; exact H|]. right. split; [reflexivity|].
  intros A. apply checks_admissible in A. congruence.
Qed.

Lemma gains_spec {K : cops} (L : claws K) (full : bool) nchan ncorr nrow time ant1 ant2
  (g1 g2 : die_arr K) (v : vis_arr K) :
  g_ndim g1 = (if full then 5 else 4) /\ g_chan g1 = nchan /\ g_corr g1 = ncorr ->
  g_ndim g2 = (if full then 5 else 4) /\ g_chan g2 = nchan /\ g_corr g2 = ncorr ->
  v_ndim v = (if full then 4 else 3) /\ v_row v = nrow /\ v_chan v = nchan /\ v_corr v = ncorr -> 0 < nrow ->
  exists out, apply_gains nrow time ant1 ant2 (Some g1) (Some v) (Some g2) = Ok out /\
    forall tmin, is_min nrow time tmin -> forall r f, r < nrow -> f < nchan ->
      let t := Z.to_nat (time r - tmin) in
      jeq full ncorr (v_at out r f) (sandwich full (g_at g1 t (ant1 r) f) (v_at v r f) (g_at g2 t (ant2 r) f)).
Proof.
  intros H1 H2 H3 Hn. unfold apply_gains.
  match goal with |- exists o, predict_vis ?q = _ /\ _ => set (a := q) end.
  assert (S : shapes full 0 nchan ncorr a).
  { constructor; cbn; try discriminate; intros x E; injection E as <-; assumption. }
  destruct (predict_vis_spec L full 0 nchan ncorr a S) as [out [E [_ [_ [_ [_ F]]]]]].
  - unfold paired; tauto. - cbn. unfold paired. split; discriminate.
  - unfold supplied. cbn. right. right. left. discriminate.
  - exact Hn.
  - exists out. split; [exact E|]. intros tmin Hm r f Hr Hf. cbn zeta.
    intros i j C. rewrite (F tmin Hm r f Hr Hf i j C). unfold measurement. cbn [p_die1 p_die2 a p_bvis p_ant1 p_ant2 p_time].
    apply (sandwich_ext full ncorr); [|exact C]. intros i' j' _. unfold jadd, source_term. cbn [a p_dde1 p_coh].
    unfold jzero. apply (Radd_0_l (law_ring K L)).
Qed.
