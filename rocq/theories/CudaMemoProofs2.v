(* the memoised conversion *)
From Coq Require Import String Permutation.
From Verif Require Import Prelude PreludeFacts CRing UtilModel CohModel CohSpec CohProofs CohProofs2 CohProofs3 DaskRimeModel DaskRimeProofs
  CudaPredictModel CudaRimeModel CudaCohModel CudaCohSpec CudaCohProofs CudaCohProofs2 CudaCohProofs3 CudaMemoModel CudaMemoSpec CudaMemoProofs.
Open Scope nat_scope.
Open Scope list_scope.

Section Convert.
  Context {K : cops} (half : K) (class : dt -> in_type).
  Notation cx := (cx K).
  Lemma decides_convert : decides convert_same.
  Proof. apply decides_pair; [apply decides_pair; [apply decides_nat|apply decides_sch]|apply decides_sch]. Qed.
  (* the kernel depends on the shape of the input only through the check *)
  Lemma generate_shape ty shape is os ex ish osh k : generate_kernel half ty shape is os = Ok (ex, ish, osh, k) ->
    forall shape', generate_kernel half ty shape' is os =
      if list_eqb (lastn (List.length ish) shape') ish then Ok (ex, ish, osh, k) else Raise ValueError.
  Proof.
    unfold generate_kernel, gpu_setup. intros H shape'. apply bind_ok in H. destruct H as ([[[m i] o] k'] & G & H).
    apply bind_ok in G. destruct G as ([ri ish'] & Ei & G). apply bind_ok in G. destruct G as ([ro osh'] & Eo & G).
    destruct (list_eqb (lastn (List.length ish') shape) ish') eqn:Es; [|discriminate]. cbn [negb] in G.
    assert (Gi : i = ish').
    { apply bind_ok in G. destruct G as (m' & _ & G). destruct m' as [|e rest]; [discriminate|].
      destruct (forallb _ rest); [|discriminate]. now injection G as _ <- _ _. }
    subst i.
    assert (X : ish' = ish).
    { destruct (Nat.eqb (prodn ish') (prodn o)); [|discriminate]. cbn [negb] in H. apply bind_ok in H. destruct H as (ex' & _ & H).
      destruct ty; try discriminate; (destruct (transposable (prodn ish')); [|discriminate]); cbn [negb] in H; now injection H as _ <- _ _. }
    subst ish'. rewrite Ei. cbn [bind]. rewrite Eo. cbn [bind].
    destruct (list_eqb (lastn (List.length ish) shape') ish); cbn [negb]; [|reflexivity].
    rewrite G. cbn [bind]. exact H.
  Qed.

  Section Launch.
    Variables (ty : in_type) (shape : list nat) (is os : sch) (ex : list (@assignment K)) (ish osh : list nat) (k : kind).
    Hypothesis Gk : generate_kernel half ty shape is os = Ok (ex, ish, osh, k).
    (* two launches that read the same values have the same results *)
    Lemma launch_pair und garbage garbage' order (a a' : ndarr K) : any_order order ->
      init_n (List.length ish) (nd_shape a) = init_n (List.length ish) (nd_shape a') ->
      (forall i, i < prodn (init_n (List.length ish) (nd_shape a)) * prodn ish ->
        nd_at a (unravel (nd_shape a) i) = nd_at a' (unravel (nd_shape a') i)) ->
      exists o o', launch_convert und garbage order (ex, ish, osh) a = Ok o /\ launch_convert und garbage' order (ex, ish, osh) a' = Ok o' /\
        nd_shape o = init_n (List.length ish) (nd_shape a) ++ osh /\
        nd_shape o = nd_shape o' /\ forall idx, inside idx (nd_shape o) -> nd_at o idx = nd_at o' idx.
    Proof.
      intros Or Hl Hv. destruct (generate_inv _ _ _ _ _ _ _ _ _ Gk) as (ri & ro & m & G).
      assert (Rc := gen_rect _ _ _ _ _ _ _ _ _ _ _ _ G). assert (El := gen_elements _ _ _ _ _ _ _ _ _ _ _ _ G).
      destruct (gen_outs_nodup _ _ _ _ _ _ _ _ _ _ _ _ G) as (Nd & Nm).
      destruct G as [Gi Go Gs Gl Gn Gkd Ge Gr Gx Gt Gp].
      destruct (element_indices_ok _ _ _ Go) as (Do & No & _).
      unfold launch_convert. rewrite <- Hl. set (fs := init_n (List.length ish) (nd_shape a)) in *.
      assert (Eg : grids [Z.of_nat (prodn fs); 1; 1]%Z [512; 1; 1]%Z = Ok [(Z.of_nat (prodn fs) + 512 - 1) / 512; (1 + 1 - 1) / 1; (1 + 1 - 1) / 1]%Z) by reflexivity.
      rewrite Eg. cbn [bind].
      destruct (divides_block _ El) as (kb & Hb). assert (HE : 0 < prodn ish) by (destruct (prodn ish); [cbn in Hb; discriminate|lia]).
      set (inp := fun i => nd_at a (unravel (nd_shape a) i)) in *. set (inp' := fun i => nd_at a' (unravel (nd_shape a') i)) in *.
      match goal with |- context [order ?n] => set (ng := n) in *;
        destruct (groups_ok (prodn ish) (prodn fs) ex und inp HE (order ng) garbage) as (o & Eo & _ & Vo);
        destruct (groups_ok (prodn ish) (prodn fs) ex und inp' HE (order ng) garbage') as (o' & Eo' & _ & Vo') end.
      rewrite Eo, Eo'. cbn [bind]. eexists. eexists. split; [reflexivity|]. split; [reflexivity|]. cbn [nd_shape nd_at].
      split; [reflexivity|]. split; [reflexivity|]. intros idx Hi. destruct (split_inside _ _ _ Hi) as (f & i & -> & Hf & Hi').
      destruct (rect_inside _ _ Rc _ Hi') as (s & Hs). apply Do in Hs.
      assert (Hent : exists i1 i2 kf, In (i1, i2, i, kf) m).
      { assert (X := loop_kinds half _ _ _ Gl). clear - X Hs. induction X as [|o e ro m [E1 E2] X IH]; [destruct Hs|].
        destruct Hs as [->|Hs].
        - destruct e as [[[i1 i2] oi] kf]. cbn in E1. subst. exists i1, i2, kf. now left.
        - destruct (IH Hs) as (i1 & i2 & kf & H). exists i1, i2, kf. now right. }
      destruct Hent as (i1 & i2 & [kk ff] & Hm). assert (R := Gr). rewrite Forall_forall in R. destruct (R _ Hm) as (R1 & R2 & R3).
      rewrite ravel_app by auto. rewrite <- Ge.
      assert (Hs' : ravel fs f < prodn fs) by (now apply ravel_lt).
      assert (Hin : In (ravel ish i1, ravel ish i2, ravel osh i, ff) ex).
      { rewrite Gx. apply in_map_iff. exists (i1, i2, i, (kk, ff)). split; auto. }
      assert (Hg : In (ravel fs f mod ((prodn fs + (prodn ish - 1)) / prodn ish)) (order ng)).
      { apply Permutation_in with (seq 0 ng); [symmetry; apply Or|]. apply in_seq. split; [lia|]. cbn [Nat.add].
        unfold ng, grid_dim. cbn [nth]. eapply enough; eauto. }
      assert (L1 := ravel_lt _ _ R1). assert (L2 := ravel_lt _ _ R2). assert (L3 := ravel_lt _ _ R3). rewrite <- Ge in L3.
      rewrite (Vo (ravel fs f) (ravel ish i1) (ravel ish i2) (ravel osh i) ff); auto.
      rewrite (Vo' (ravel fs f) (ravel ish i1) (ravel ish i2) (ravel osh i) ff); auto.
      unfold inp, inp'. rewrite !Hv by nia. reflexivity.
    Qed.
  End Launch.

  Lemma init_leading (shape dims : list nat) : init_n (List.length dims) shape = leading shape dims.
  Proof. reflexivity. Qed.
  Lemma prodn_app a b : prodn (a ++ b) = prodn a * prodn b.
  Proof. induction a; cbn [prodn app]; lia. Qed.
  Lemma init_app (l d : list nat) : init_n (List.length d) (l ++ d) = l.
  Proof. unfold init_n. rewrite app_length. replace (List.length l + List.length d - List.length d) with (List.length l) by lia.
    rewrite firstn_app, Nat.sub_diag, firstn_all. cbn. apply app_nil_r. Qed.

  (* an array that ends in the shape of the input schema is converted as if it were the first *)
  Theorem convert_fresh h d und garbage order (a : ndarr K) is os fs di : rect (boxed is) di -> nd_shape a = fs ++ di ->
    cuda_convert_after half class h d und garbage order a is os = cuda_convert half (class d) und garbage order a is os.
  Proof.
    intros Ri Ha. unfold cuda_convert_after, cuda_convert.
    rewrite (memoized_fresh convert_same convert_key (convert_generate half class) decides_convert).
    - unfold convert_generate. destruct (generate_kernel half (class d) (nd_shape a) is os) as [[[[ex ish] osh] k]|e] eqn:G; [|reflexivity]. cbn [bind].
      assert (E : nd_shape a = init_n (List.length ish) (nd_shape a) ++ ish).
      { destruct (generate_inv _ _ _ _ _ _ _ _ _ G) as (ri & ro & m & X). apply (gn_shape _ _ _ _ _ _ _ _ _ _ _ _ X). }
      rewrite E at 1. rewrite prodn_app, Nat.eqb_refl. reflexivity.
    - intros [[[d' sh'] is'] os'] [[[ex ish] osh] k] E G. cbn in E. injection E as -> -> ->. unfold convert_generate in *.
      rewrite (generate_shape _ _ _ _ _ _ _ _ G). destruct (generate_inv _ _ _ _ _ _ _ _ _ G) as (ri & ro & m & X).
      destruct (element_indices_ok _ _ _ (gn_in _ _ _ _ _ _ _ _ _ _ _ _ X)) as (D & _).
      assert (ish = di) by (eapply described_shape; eauto). subst ish.
      assert (Es : list_eqb (lastn (List.length di) (nd_shape a)) di = true) by (apply list_eqb_eq; rewrite Ha; apply lastn_app).
      now rewrite Es.
  Qed.
  (* any other array, once a conversion with the same type and schemas has been generated *)
  Theorem convert_stale h d und garbage order (a : ndarr K) is os di shape : rect (boxed is) di -> any_order order ->
    In (d, shape, is, os) h -> (exists v, convert_generate half class (d, shape, is, os) = Ok v) ->
    (forall fs, nd_shape a <> fs ++ di) ->
    let lead := leading (nd_shape a) di in
    cuda_convert half (class d) und garbage order a is os = Raise ValueError /\
    (prodn (nd_shape a) <> prodn lead * prodn di ->
       cuda_convert_after half class h d und garbage order a is os = Raise ValueError) /\
    (prodn (nd_shape a) = prodn lead * prodn di ->
       (forall e, cuda_convert half (class d) und garbage order (reshaped a (lead ++ di)) is os = Raise e ->
         cuda_convert_after half class h d und garbage order a is os = Raise e) /\
       forall out, cuda_convert half (class d) und garbage order (reshaped a (lead ++ di)) is os = Ok out ->
         exists out', cuda_convert_after half class h d und garbage order a is os = Ok out' /\
           nd_shape out' = nd_shape out /\ forall idx, inside idx (nd_shape out) -> nd_at out' idx = nd_at out idx).
  Proof.
    intros Ri Or Hin ([[[ex ish] osh] k] & G) Hne lead. unfold convert_generate in G.
    destruct (generate_inv _ _ _ _ _ _ _ _ _ G) as (ri & ro & m & X).
    destruct (element_indices_ok _ _ _ (gn_in _ _ _ _ _ _ _ _ _ _ _ _ X)) as (D & _).
    assert (ish = di) by (eapply described_shape; eauto). subst ish. clear X D ri ro m.
    assert (Es : list_eqb (lastn (List.length di) (nd_shape a)) di = false).
    { destruct (list_eqb _ di) eqn:E; auto. apply split_shape in E. exfalso. eapply Hne; eauto. }
    assert (M : memoized convert_same convert_key (convert_generate half class) h (d, nd_shape a, is, os) = Ok (ex, di, osh, k)).
    { rewrite (memoized_find convert_same convert_key (convert_generate half class) decides_convert).
      match goal with |- context [find ?p h] => destruct (find p h) as [[[[d' sh'] is'] os']|] eqn:F end.
      - destruct (find_some _ _ F) as [_ P]. apply andb_prop in P. destruct P as [P Q]. apply decides_convert in P.
        cbn in P. injection P as -> -> ->. unfold convert_generate in *.
        destruct (generate_kernel half (class d) sh' is os) as [[[[ex' ish'] osh'] k']|] eqn:G'; [|discriminate].
        rewrite (generate_shape _ _ _ _ _ _ _ _ G) in G'. destruct (list_eqb (lastn (List.length di) sh') di); [symmetry; exact G'|discriminate].
      - assert (N := find_none _ _ F _ Hin). cbn -[convert_same] in N. rewrite (proj2 (decides_convert _ _) eq_refl), G in N. discriminate. }
    split; [|split].
    - unfold cuda_convert. rewrite (generate_shape _ _ _ _ _ _ _ _ G), Es. reflexivity.
    - intros Hn. unfold cuda_convert_after. rewrite M. cbn [bind]. rewrite init_leading. fold lead.
      destruct (Nat.eqb_spec (prodn (nd_shape a)) (prodn lead * prodn di)); [contradiction|reflexivity].
    - intros He. unfold cuda_convert_after. rewrite M. cbn [bind]. rewrite init_leading. fold lead. rewrite He, Nat.eqb_refl. cbn [negb].
      assert (Gr : generate_kernel half (class d) (nd_shape (reshaped a (lead ++ di))) is os = Ok (ex, di, osh, k)).
      { rewrite (generate_shape _ _ _ _ _ _ _ _ G). cbn [nd_shape reshaped].
        assert (E1 : list_eqb (lastn (List.length di) (lead ++ di)) di = true) by (apply list_eqb_eq; apply lastn_app). now rewrite E1. }
      unfold cuda_convert. rewrite Gr. cbn [bind].
      destruct (compiles (class d) k); [|split; [auto|discriminate]].
      destruct (launch_pair _ _ _ _ _ _ _ _ G und garbage garbage order a (reshaped a (lead ++ di)) Or) as (o & o' & E1 & E2 & S1 & S2 & V).
      + cbn [nd_shape reshaped]. now rewrite init_app.
      + rewrite init_leading. fold lead. intros i Hi. cbn [nd_shape nd_at reshaped].
        rewrite (proj2 (unravel_inside (lead ++ di) i ltac:(rewrite prodn_app; exact Hi))). reflexivity.
      + split; [intros e E; rewrite E2 in E; discriminate|]. intros out E. rewrite E2 in E. injection E as <-.
        exists o. split; auto. split; auto. rewrite <- S2. auto.
  Qed.
End Convert.
