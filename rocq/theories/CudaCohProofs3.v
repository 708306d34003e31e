(* An accepted conversion has the CPU's result. *)
From Coq Require Import String Permutation.
From Verif Require Import Prelude PreludeFacts CRing UtilModel CohModel CohSpec CohProofs CohProofs2 CohProofs3 DaskRimeModel DaskRimeProofs
  CudaPredictModel CudaRimeModel CudaCohModel CudaCohSpec CudaCohProofs CudaCohProofs2.
Open Scope nat_scope.
Open Scope string_scope.

Lemma split_shape (shape sh : list nat) : list_eqb (lastn (List.length sh) shape) sh = true <-> shape = (init_n (List.length sh) shape ++ sh)%list.
Proof.
  rewrite list_eqb_eq. unfold lastn, init_n. split.
  - intros H. rewrite <- H at 2. symmetry. apply firstn_skipn.
  - intros H. apply (app_inv_head (firstn (List.length shape - List.length sh) shape)). rewrite firstn_skipn. exact H.
Qed.
Lemma transposable_eight n : n <= 8 -> transposable n = true -> In n [1; 2; 4; 8].
Proof. intros H T. do 9 (destruct n as [|n]; [cbn in T; try discriminate; cbn; tauto|]). lia. Qed.
Lemma divides_block n : In n [1; 2; 4; 8] -> exists k, 512 = n * k.
Proof.
  cbn. intros [<-|[<-|[<-|[<-|[]]]]]; [exists 512|exists 256|exists 128|exists 64]; reflexivity.
Qed.

Section Main.
  Context {K : cops} (L : claws K) (half : K).
  Notation cx := (cx K).
  Definition in_range (ishape oshape : list nat) (e : @gpu_entry K) : Prop :=
    let '(i1, i2, oi, _) := e in inside i1 ishape /\ inside i2 ishape /\ inside oi oshape.
  Definition flat_entry (ishape oshape : list nat) (e : @gpu_entry K) : assignment :=
    let '(i1, i2, oi, (_, f)) := e in (ravel ishape i1, ravel ishape i2, ravel oshape oi, f).
  Record generated (ty : in_type) (shape : list nat) (is os : sch) (ex : list assignment) (ishape oshape : list nat) (k : kind)
      (ri ro : names) (m : list (@gpu_entry K)) : Prop := {
    gn_in : element_indices_and_shape is = Ok (ri, ishape);
    gn_out : element_indices_and_shape os = Ok (ro, oshape);
    gn_shape : shape = (init_n (List.length ishape) shape ++ ishape)%list;
    gn_loop : gpu_loop half ri ro = Ok m;
    gn_some : m <> [];
    gn_kind : Forall (fun e => kind_of e = k) m;
    gn_elems : prodn ishape = prodn oshape;
    gn_range : Forall (in_range ishape oshape) m;
    gn_exprs : ex = map (flat_entry ishape oshape) m;
    gn_type : ty <> TUnmapped;
    gn_pow : transposable (prodn ishape) = true }.
  Lemma generate_inv ty shape is os ex ishape oshape k : generate_kernel half ty shape is os = Ok (ex, ishape, oshape, k) ->
    exists ri ro m, generated ty shape is os ex ishape oshape k ri ro m.
  Proof.
    unfold generate_kernel, gpu_setup. intros H. apply bind_ok in H. destruct H as ([[[m ish] osh] k'] & G & H).
    apply bind_ok in G. destruct G as ([ri ish'] & Ei & G). apply bind_ok in G. destruct G as ([ro osh'] & Eo & G).
    destruct (list_eqb (lastn (List.length ish') shape) ish') eqn:Es; [|discriminate]. cbn [negb] in G.
    apply bind_ok in G. destruct G as (m' & El & G). destruct m' as [|e rest]; [discriminate|].
    destruct (forallb _ rest) eqn:Ek; [|discriminate]. injection G as <- <- <- <-.
    destruct (Nat.eqb_spec (prodn ish') (prodn osh')) as [Ep|]; [|discriminate]. cbn [negb] in H.
    apply bind_ok in H. destruct H as (ex' & Ea & H). destruct ty; try discriminate;
      (destruct (transposable (prodn ish')) eqn:Et; [|discriminate]); cbn [negb] in H; injection H as <- <- <- <-;
      apply assign_exprs_ok in Ea; destruct Ea as [Fr ->];
      exists ri, ro, (e :: rest); (constructor; auto; try discriminate; try (now apply split_shape));
      (constructor; auto; rewrite forallb_forall in Ek; apply Forall_forall; intros d Hd; symmetry; apply kind_eqb_eq; now apply Ek).
  Qed.

  Section Generated.
    Variables (ty : in_type) (shape : list nat) (is os : sch) (ex : list (@assignment K)) (ishape oshape : list nat) (k : kind) (ri ro : names)
      (m : list (@gpu_entry K)).
    Hypothesis G : generated ty shape is os ex ishape oshape k ri ro m.
    Lemma gen_rect : rect (boxed os) oshape.
    Proof.
      destruct (element_indices_ok _ _ _ (gn_out _ _ _ _ _ _ _ _ _ _ _ G)) as (D & N & _).
      apply (rect_of_described _ ro); auto.
      - intros ->. assert (X := gn_loop _ _ _ _ _ _ _ _ _ _ _ G). cbn in X. injection X as <-. now apply (gn_some _ _ _ _ _ _ _ _ _ _ _ G).
      - intros s idx Hin. assert (X := loop_kinds half _ _ _ (gn_loop _ _ _ _ _ _ _ _ _ _ _ G)).
        assert (R := gn_range _ _ _ _ _ _ _ _ _ _ _ G). clear - X R Hin.
        induction X as [|o e ro m [E1 E2] X IH]; [destruct Hin|]. inversion R; subst. destruct Hin as [->|Hin]; [|apply IH; auto].
        destruct e as [[[i1 i2] oi] kf]. cbn in *. subst. tauto.
    Qed.
    Lemma gen_elements : In (prodn ishape) [1; 2; 4; 8].
    Proof.
      apply transposable_eight; [|apply (gn_pow _ _ _ _ _ _ _ _ _ _ _ G)].
      rewrite (gn_elems _ _ _ _ _ _ _ _ _ _ _ G).
      destruct (element_indices_ok _ _ _ (gn_out _ _ _ _ _ _ _ _ _ _ _ G)) as (D & N & _).
      etransitivity; [apply (names_count _ _ _ D gen_rect)|].
      assert (X := loop_kinds half _ _ _ (gn_loop _ _ _ _ _ _ _ _ _ _ _ G)).
      assert (R := gn_kind _ _ _ _ _ _ _ _ _ _ _ G).
      assert (Y : incl (map fst ro) (match k with KReal => STOKES | KComplex => CORRELATIONS end)).
      { clear - X R. induction X as [|o e ro m [E1 E2] X IH]; [intros s []|]. inversion R; subst.
        intros s [<-|Hs]; [exact E2|apply IH; auto]. }
      assert (Z := NoDup_incl_length (proj1 (proj2 D)) Y). rewrite map_length in Z. destruct k; cbn in Z; lia.
    Qed.
    Lemma gen_outs_nodup : NoDup (map (fun e : assignment => snd (fst e)) ex) /\ NoDup (map (fun e : @gpu_entry K => snd (fst e)) m).
    Proof.
      destruct (element_indices_ok _ _ _ (gn_out _ _ _ _ _ _ _ _ _ _ _ G)) as (D & N & _).
      assert (X := loop_kinds half _ _ _ (gn_loop _ _ _ _ _ _ _ _ _ _ _ G)).
      assert (E : map (fun e : @gpu_entry K => snd (fst e)) m = map snd ro).
      { clear - X. induction X as [|o e ro m [E1 E2] X IH]; cbn; auto. now rewrite E1, IH. }
      assert (Nm : NoDup (map (fun e : @gpu_entry K => snd (fst e)) m)) by (rewrite E; eapply described_nodup; eauto).
      split; auto. rewrite (gn_exprs _ _ _ _ _ _ _ _ _ _ _ G), map_map.
      assert (R := gn_range _ _ _ _ _ _ _ _ _ _ _ G). clear - R Nm.
      induction m as [|e m' IH]; cbn [map] in *; [constructor|]. inversion R as [|x l Re Rm Hx]; subst. inversion Nm as [|x l He Nm' Hx]; subst.
      constructor; auto. intros Hin. apply He. apply in_map_iff in Hin. destruct Hin as (e' & E & He').
      apply in_map_iff. exists e'. split; auto. rewrite Forall_forall in Rm. specialize (Rm e' He').
      destruct e as [[[i1 i2] oi] [kk f]], e' as [[[j1 j2] oj] [kk' f']]. cbn in *.
      destruct Re as (_ & _ & Re), Rm as (_ & _ & Rm).
      apply (f_equal (unravel oshape)) in E. now rewrite !unravel_ravel in E.
    Qed.
  End Generated.

  Theorem cuda_same ty und garbage order (a : ndarr K) is os out : any_order order ->
    (ty = TReal -> forall idx, inside idx (nd_shape a) -> is_real (nd_at a idx)) ->
    cuda_convert half ty und garbage order a is os = Ok out ->
    forall g, exists cpu, convert half g a is os = Ok cpu /\ nd_shape out = nd_shape cpu /\
      forall idx, inside idx (nd_shape cpu) -> nd_at out idx = nd_at cpu idx.
  Proof.
    intros Or Re H g. unfold cuda_convert in H. apply bind_ok in H. destruct H as ([[[ex ish] osh] k] & Gk & H).
    destruct (compiles ty k) eqn:Ec; [|discriminate].
    destruct (generate_inv _ _ _ _ _ _ _ _ Gk) as (ri & ro & m & G).
    assert (Rc := gen_rect _ _ _ _ _ _ _ _ _ _ _ G). assert (El := gen_elements _ _ _ _ _ _ _ _ _ _ _ G).
    destruct (gen_outs_nodup _ _ _ _ _ _ _ _ _ _ _ G) as (Nd & Nm).
    destruct G as [Gi Go Gs Gl Gn Gkd Ge Gr Gx Gt Gp].
    destruct (element_indices_ok _ _ _ Go) as (Do & No & _).
    destruct (loop_same_rev L half ri ro false m Gl) as (m0 & E0 & Fm).
    set (fs := init_n (List.length ish) (nd_shape a)) in *.
    (* the CPU *)
    assert (Em : map (fun e : entry (K := K) => snd (fst e)) m0 = map (fun e : @gpu_entry K => snd (fst e)) m).
    { clear - Fm. induction Fm as [|e e0 m m0 [E _] F IH]; cbn; auto. now rewrite E, IH. }
    assert (In0 : forall i1 i2 oi fn, In (i1, i2, oi, fn) m0 -> exists kf, In (i1, i2, oi, kf) m /\ agree kf fn).
    { intros i1 i2 oi fn Hin. clear - Fm Hin. induction Fm as [|[e kf] [e0 f0] m m0 [E A] F IH]; [destruct Hin|].
      cbn in E, A. subst e0. destruct Hin as [Hin|Hin].
      - injection Hin as -> ->. exists kf. split; auto. now left.
      - destruct (IH Hin) as (kf' & H1 & H2). exists kf'. split; auto. now right. }
    destruct (apply_mapping_ok a fs ish osh m0 Gs {| nd_shape := (fs ++ osh)%list; nd_at := g |} eq_refl) as (cpu & Ecpu & Scpu & Vcpu & _).
    { intros i1 i2 oi fn Hin. destruct (In0 _ _ _ _ Hin) as (kf & Hm & _). rewrite Forall_forall in Gr. apply (Gr _ Hm). }
    { now rewrite Em. }
    exists cpu. split.
    { unfold convert, convert_setup. rewrite Gi. cbn [bind]. rewrite Go. cbn [bind].
      rewrite (proj2 (split_shape _ _) Gs). cbn [negb]. rewrite E0. cbn [bind].
      destruct m0 as [|e0 m0']; [inversion Fm; congruence|]. cbn [bind]. unfold convert_impl. fold fs. exact Ecpu. }
    (* the kernel *)
    unfold launch_convert in H. fold fs in H.
    assert (Eg : grids [Z.of_nat (prodn fs); 1; 1]%Z [512; 1; 1]%Z = Ok [(Z.of_nat (prodn fs) + 512 - 1) / 512; (1 + 1 - 1) / 1; (1 + 1 - 1) / 1]%Z) by reflexivity.
    rewrite Eg in H. cbn [bind] in H.
    destruct (divides_block _ El) as (kb & Hb). assert (HE : 0 < prodn ish) by (destruct (prodn ish); [cbn in Hb; discriminate|lia]).
    set (inp := fun i => nd_at a (unravel (nd_shape a) i)) in *.
    match type of H with context [order ?n] => set (ng := n) in *; destruct (groups_ok (prodn ish) (prodn fs) ex und inp HE (order ng) garbage) as (o & Eo & _ & Vo) end.
    rewrite Eo in H. cbn [bind] in H. injection H as <-. cbn [nd_shape nd_at]. split; [now rewrite Scpu|].
    rewrite Scpu. intros idx Hi. destruct (split_inside _ _ _ Hi) as (f & i & -> & Hf & Hi').
    destruct (rect_inside _ _ Rc _ Hi') as (s & Hs). apply Do in Hs.
    (* the entry of this output *)
    assert (Hent : exists i1 i2 fn, In (i1, i2, i, fn) m0).
    { assert (Hr : In i (map (fun e : entry (K := K) => snd (fst e)) m0)).
      { rewrite Em. assert (X := loop_kinds half _ _ _ Gl). clear - X Hs. induction X as [|o e ro m [E1 E2] X IH]; [destruct Hs|].
        destruct Hs as [->|Hs]; cbn; [left; exact E1|right; auto]. }
      apply in_map_iff in Hr. destruct Hr as ([[[i1 i2] oi] fn] & E & Hin). cbn in E. subst. eauto. }
    destruct Hent as (i1 & i2 & fn & Hin). rewrite (Vcpu _ _ _ _ f Hin).
    destruct (In0 _ _ _ _ Hin) as (kf & Hm & A). assert (R := Gr). rewrite Forall_forall in R. destruct (R _ Hm) as (R1 & R2 & R3).
    rewrite ravel_app by auto. rewrite <- Ge.
    assert (Hs' : ravel fs f < prodn fs) by (now apply ravel_lt).
    destruct kf as [kk ff].
    rewrite (Vo (ravel fs f) (ravel ish i1) (ravel ish i2) (ravel osh i) ff); auto.
    - assert (Pos : forall j, inside j ish -> inp (ravel fs f * prodn ish + ravel ish j) = nd_at a (f ++ j)%list).
      { intros j Hj. unfold inp. rewrite <- ravel_app by auto. rewrite <- Gs.
        rewrite unravel_ravel; auto. rewrite Gs. now apply Forall2_app. }
      rewrite !Pos by auto. apply (A (nd_at a (f ++ i1)%list) (nd_at a (f ++ i2)%list)). cbn [fst].
      rewrite Forall_forall in Gkd. specialize (Gkd _ Hm). unfold kind_of in Gkd. cbn in Gkd. subst kk. intros ->.
      destruct ty; try discriminate.
      split; apply (Re eq_refl); rewrite Gs; now apply Forall2_app.
    - apply Permutation_in with (seq 0 ng); [symmetry; apply Or|]. apply in_seq. split; [lia|]. cbn [Nat.add].
      unfold ng, grid_dim. cbn [nth]. eapply enough; eauto.
    - rewrite Gx. apply in_map_iff. exists (i1, i2, i, (kk, ff)). split; auto.
    - now apply ravel_lt.
    - now apply ravel_lt.
    - rewrite Ge. now apply ravel_lt.
  Qed.
  Theorem cuda_elements ty und garbage order (a : ndarr K) is os out : cuda_convert half ty und garbage order a is os = Ok out ->
    exists lead di do_, nd_shape a = (lead ++ di)%list /\ rect (boxed os) do_ /\ prodn di = prodn do_ /\ In (prodn do_) [1; 2; 4; 8] /\
      ((ty = TReal /\ only (boxed os) CORRELATIONS) \/ (ty = TComplex /\ only (boxed os) STOKES)).
  Proof.
    intros H. unfold cuda_convert in H. apply bind_ok in H. destruct H as ([[[ex ish] osh] k] & Gk & H).
    destruct (compiles ty k) eqn:Ec; [|discriminate].
    destruct (generate_inv _ _ _ _ _ _ _ _ Gk) as (ri & ro & m & G).
    exists (init_n (List.length ish) (nd_shape a)), ish, osh. assert (Ge := gn_elems _ _ _ _ _ _ _ _ _ _ _ G).
    split; [apply (gn_shape _ _ _ _ _ _ _ _ _ _ _ G)|]. split; [apply (gen_rect _ _ _ _ _ _ _ _ _ _ _ G)|]. split; auto.
    split; [rewrite <- Ge; apply (gen_elements _ _ _ _ _ _ _ _ _ _ _ G)|].
    assert (Y : only (boxed os) (match k with KReal => STOKES | KComplex => CORRELATIONS end)).
    { destruct (element_indices_ok _ _ _ (gn_out _ _ _ _ _ _ _ _ _ _ _ G)) as (D & _).
      assert (X := loop_kinds half _ _ _ (gn_loop _ _ _ _ _ _ _ _ _ _ _ G)).
      assert (R := gn_kind _ _ _ _ _ _ _ _ _ _ _ G). intros idx s Hs. apply D in Hs.
      clear - X R Hs. induction X as [|o e ro m [E1 E2] X IH]; [destruct Hs|]. inversion R; subst.
      destruct Hs as [->|Hs]; [exact E2|apply IH; auto]. }
    destruct ty, k; try discriminate; auto.
  Qed.
End Main.
