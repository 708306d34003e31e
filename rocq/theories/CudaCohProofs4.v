(* Which conversions the CUDA implementation accepts, among those of the CPU; and its exceptions. *)
From Coq Require Import String Permutation.
From Verif Require Import Prelude PreludeFacts CRing UtilModel CohModel CohSpec CohProofs CohProofs2 CohProofs3 DaskRimeModel DaskRimeProofs
  CudaPredictModel CudaRimeModel CudaCohModel CudaCohSpec CudaCohProofs CudaCohProofs2 CudaCohProofs3.
Open Scope nat_scope.
Open Scope string_scope.

Lemma transposable_pow n : n <= 8 -> transposable n = true <-> power_of_two n.
Proof.
  intros H. split.
  - intros T. apply transposable_eight in T; auto. cbn in T.
    destruct T as [<-|[<-|[<-|[<-|[]]]]]; [exists 0|exists 1|exists 2|exists 3]; reflexivity.
  - intros (k & ->). destruct k as [|[|[|[|k]]]]; try reflexivity. exfalso. revert H.
    rewrite !Nat.pow_succ_r'. assert (1 <= 2 ^ k) by (clear; induction k; cbn; lia). lia.
Qed.

Section Verdict.
  Context {K : cops} (L : claws K) (half : K).
  Notation cx := (cx K).
  Variables (ty : in_type) (und : nat -> arr cx * arr cx) (garbage : nat -> cx) (order : nat -> list nat) (a : ndarr K) (is os : sch)
    (fs di do_ : list nat).
  Hypothesis Ri : rect (boxed is) di.
  Hypothesis Di : distinct (boxed is).
  Hypothesis Ro : rect (boxed os) do_.
  Hypothesis Do : distinct (boxed os).
  Hypothesis Ha : nd_shape a = (fs ++ di)%list.

  Section Accepted.
    Variables (g : list nat -> cx) (cpu : ndarr K).
    Hypothesis Hc : convert half g a is os = Ok cpu.
    Lemma prepared : exists ri ro m, element_indices_and_shape is = Ok (ri, di) /\ element_indices_and_shape os = Ok (ro, do_) /\
      described (boxed os) ro do_ /\ gpu_loop half ri ro = Ok m /\ m <> [] /\ Forall (in_range di do_) m.
    Proof.
      destruct (rect_accept is di Ri Di) as (ri & Ei & Dri). destruct (rect_accept os do_ Ro Do) as (ro & Eo & Dro).
      unfold convert, convert_setup in Hc. rewrite Ei, Eo in Hc. cbn [bind] in Hc.
      assert (Sh : list_eqb (lastn (List.length di) (nd_shape a)) di = true).
      { apply list_eqb_eq. rewrite Ha. apply lastn_app. }
      rewrite Sh in Hc. cbn [negb] in Hc. apply bind_ok in Hc. destruct Hc as ([[m0' i0] o0] & E & _).
      apply bind_ok in E. destruct E as (m0 & E0 & E).
      destruct (loop_same L half ri ro false m0 E0) as (m & Em & Fm).
      exists ri, ro, m. split; auto. split; auto. split; auto. split; auto. split.
      - intros ->. inversion Fm; subst. discriminate.
      - assert (X := setup_loop_inv half _ _ _ _ _ _ Dri E0).
        assert (Y : Forall (fun e : entry (K := K) => let '(i1, i2, oi, _) := e in inside i1 di /\ inside i2 di /\ inside oi do_) m0).
        { assert (Hro : forall s idx, In (s, idx) ro -> inside idx do_).
          { intros s idx H. apply Dro in H. eapply rect_at; eauto. }
          clear - X Hro Ri. induction X as [|[s idx] [[[i1 i2] oi] fn] ro m0 X0 X IH]; constructor.
          - cbn in X0. destruct X0 as (-> & deps & p & q & _ & _ & A1 & A2).
            split; [eapply rect_at; eauto|]. split; [eapply rect_at; eauto|]. apply (Hro s). now left.
          - apply IH. intros s' idx' H. apply (Hro s'). now right. }
        clear - Fm Y. induction Fm as [|[e kf] [e0 f0] m m0 [E A] F IH]; constructor; inversion Y; subst; auto.
        cbn in E. subst. destruct e0 as [[i1 i2] oi]. auto.
    Qed.
    Lemma known_names : only (boxed os) (STOKES ++ CORRELATIONS)%list.
    Proof.
      destruct prepared as (ri & ro & m & _ & _ & Dro & El & _). assert (X := loop_kinds half _ _ _ El).
      intros idx s Hs. apply Dro in Hs. clear - X Hs. induction X as [|o e ro m [E1 E2] X IH]; [destruct Hs|].
      destruct Hs as [->|Hs]; [|auto]. unfold name_kind in E2. cbn [fst] in E2. apply in_or_app. destruct (kind_of e); auto.
    Qed.
    Lemma setup_mixed : some_of (boxed os) STOKES -> some_of (boxed os) CORRELATIONS ->
      gpu_setup half (nd_shape a) is os = Raise ValueError.
    Proof.
      intros (i1 & s1 & A1 & N1) (i2 & s2 & A2 & N2). destruct prepared as (ri & ro & m & Ei & Eo & Dro & El & Nm & Rm).
      unfold gpu_setup. rewrite Ei, Eo. cbn [bind].
      assert (Sh : list_eqb (lastn (List.length di) (nd_shape a)) di = true).
      { apply list_eqb_eq. rewrite Ha. apply lastn_app. }
      rewrite Sh. cbn [negb]. rewrite El. cbn [bind]. destruct m as [|e rest]; [congruence|].
      destruct (forallb _ rest) eqn:F; [|reflexivity]. exfalso.
      assert (X := loop_kinds half _ _ _ El). apply Dro in A1, A2.
      assert (All : Forall (fun d => kind_of d = kind_of e) (e :: rest)).
      { constructor; auto. apply Forall_forall. intros d Hd. rewrite forallb_forall in F. symmetry. apply kind_eqb_eq. now apply F. }
      assert (Y : forall s i, In (s, i) ro -> name_kind s (kind_of e)).
      { revert X All. generalize (kind_of e). generalize (e :: rest). intros l k X All s i Hs.
        clear - X All Hs. induction X as [|o e ro m [E1 E2] X IH]; [destruct Hs|]. inversion All; subst.
        destruct Hs as [->|Hs]; [exact E2|auto]. }
      destruct (kind_of e) eqn:Ek.
      - apply (kind_disjoint s2); [apply (Y _ _ A2)|exact N2].
      - apply (kind_disjoint s1); [exact N1|apply (Y _ _ A1)].
    Qed.
    Lemma setup_uniform k : (forall idx s, at_ (boxed os) idx s -> name_kind s k) ->
      exists m, gpu_setup half (nd_shape a) is os = Ok (m, di, do_, k) /\ Forall (in_range di do_) m /\ prodn do_ <= 8.
    Proof.
      intros Hk. destruct prepared as (ri & ro & m & Ei & Eo & Dro & El & Nm & Rm).
      unfold gpu_setup. rewrite Ei, Eo. cbn [bind].
      assert (Sh : list_eqb (lastn (List.length di) (nd_shape a)) di = true).
      { apply list_eqb_eq. rewrite Ha. apply lastn_app. }
      rewrite Sh. cbn [negb]. rewrite El. cbn [bind].
      assert (X := loop_kinds half _ _ _ El).
      assert (Hk' : forall s idx, In (s, idx) ro -> name_kind s k) by (intros s idx H; apply Dro in H; eauto).
      assert (All : Forall (fun d => kind_of d = k) m).
      { clear - X Hk'. induction X as [|[s idx] e ro m [E1 E2] X IH]; constructor.
        - cbn [fst] in E2. assert (Hs := Hk' s idx (or_introl eq_refl)). destruct k, (kind_of e); auto; exfalso; eauto using kind_disjoint.
        - apply IH. intros s' idx' H. apply (Hk' s' idx'). now right. }
      assert (P8 : prodn do_ <= 8).
      { etransitivity; [apply (names_count _ _ _ Dro Ro)|].
        assert (Y : incl (map fst ro) (match k with KReal => STOKES | KComplex => CORRELATIONS end)).
        { intros s Hs. apply in_map_iff in Hs. destruct Hs as ([s' idx] & <- & Hs). apply (Hk' _ _ Hs). }
        assert (Z := NoDup_incl_length (proj1 (proj2 Dro)) Y). rewrite map_length in Z. destruct k; cbn in Z; lia. }
      destruct m as [|e rest]; [congruence|]. inversion All; subst. exists (e :: rest).
      assert (F : forallb (fun d => kind_eqb (kind_of e) (kind_of d)) rest = true).
      { apply forallb_forall. intros d Hd. apply kind_eqb_eq. rewrite Forall_forall in H2. symmetry. auto. }
      rewrite F. auto.
    Qed.
    Theorem verdict :
      (some_of (boxed os) STOKES -> some_of (boxed os) CORRELATIONS ->
         cuda_convert half ty und garbage order a is os = Raise ValueError) /\
      (prodn di <> prodn do_ -> cuda_convert half ty und garbage order a is os = Raise ValueError) /\
      (ty = TUnmapped -> cuda_convert half ty und garbage order a is os = Raise ValueError) /\
      ((only (boxed os) STOKES \/ only (boxed os) CORRELATIONS) -> prodn di = prodn do_ -> ty <> TUnmapped ->
         (~ power_of_two (prodn di) -> cuda_convert half ty und garbage order a is os = Raise template_exn) /\
         (power_of_two (prodn di) ->
            (ty = TReal /\ only (boxed os) STOKES) \/ (ty = TComplex /\ only (boxed os) CORRELATIONS) ->
            cuda_convert half ty und garbage order a is os = Raise compile_exn) /\
         (power_of_two (prodn di) ->
            (ty = TReal /\ only (boxed os) CORRELATIONS) \/ (ty = TComplex /\ only (boxed os) STOKES) ->
            exists out, cuda_convert half ty und garbage order a is os = Ok out)).
    Proof.
      assert (Mix : some_of (boxed os) STOKES -> some_of (boxed os) CORRELATIONS ->
         cuda_convert half ty und garbage order a is os = Raise ValueError).
      { intros H1 H2. unfold cuda_convert, generate_kernel. now rewrite (setup_mixed H1 H2). }
      assert (Cases : (some_of (boxed os) STOKES /\ some_of (boxed os) CORRELATIONS) \/ only (boxed os) STOKES \/ only (boxed os) CORRELATIONS).
      { destruct prepared as (ri & ro & m & Ei & Eo & Dro & El & Nm & Rm). assert (Kn := known_names).
        assert (G : forall l, incl l ro -> (exists i s, In (s, i) l /\ In s STOKES) \/ forall i s, In (s, i) l -> In s CORRELATIONS).
        { induction l as [|[s i] l IH]; intros Hl; [right; intros i s []|].
          assert (Hs : In s (STOKES ++ CORRELATIONS)%list) by (apply (Kn i); apply Dro; apply Hl; now left).
          apply in_app_or in Hs. destruct Hs as [Hs|Hs]; [left; exists i, s; split; auto; now left|].
          destruct IH as [(i' & s' & A & B)|IH]; [intros x Hx; apply Hl; now right| |].
          - left. exists i', s'. split; auto. now right.
          - right. intros i' s' [E|Hin]; [now injection E as <- <-|eauto]. }
        assert (G' : forall l, incl l ro -> (exists i s, In (s, i) l /\ In s CORRELATIONS) \/ forall i s, In (s, i) l -> In s STOKES).
        { induction l as [|[s i] l IH]; intros Hl; [right; intros i s []|].
          assert (Hs : In s (STOKES ++ CORRELATIONS)%list) by (apply (Kn i); apply Dro; apply Hl; now left).
          apply in_app_or in Hs. destruct Hs as [Hs|Hs]; [|left; exists i, s; split; auto; now left].
          destruct IH as [(i' & s' & A & B)|IH]; [intros x Hx; apply Hl; now right| |].
          - left. exists i', s'. split; auto. now right.
          - right. intros i' s' [E|Hin]; [now injection E as <- <-|eauto]. }
        destruct (G ro (incl_refl _)) as [(i & s & A & B)|H]; [|right; right; intros i s Hs; apply Dro in Hs; eauto].
        destruct (G' ro (incl_refl _)) as [(i' & s' & A' & B')|H]; [|right; left; intros j t Hs; apply Dro in Hs; eauto].
        left. split; [exists i, s|exists i', s']; split; auto; now apply Dro. }
      assert (Uni : forall k, (forall idx s, at_ (boxed os) idx s -> name_kind s k) ->
        exists ex, generate_kernel half ty (nd_shape a) is os =
          (if negb (Nat.eqb (prodn di) (prodn do_)) then Raise ValueError else
           match ty with TUnmapped => Raise ValueError | _ => if transposable (prodn di) then Ok (ex, di, do_, k) else Raise template_exn end)
          /\ prodn do_ <= 8).
      { intros k Hk. destruct (setup_uniform k Hk) as (m & Es & Rm & P8). exists (map (flat_entry di do_) m).
        unfold generate_kernel. rewrite Es. cbn [bind]. split; auto.
        destruct (Nat.eqb (prodn di) (prodn do_)); cbn [negb]; auto.
        rewrite (proj2 (assign_exprs_ok m di do_ _) (conj Rm eq_refl)). cbn [bind].
        destruct ty; auto; destruct (transposable (prodn di)); reflexivity. }
      assert (Bad : forall r : res (list (@assignment K) * list nat * list nat * kind), generate_kernel half ty (nd_shape a) is os = r ->
        forall e, r = Raise e -> cuda_convert half ty und garbage order a is os = Raise e).
      { intros r E e ->. unfold cuda_convert. now rewrite E. }
      split; [exact Mix|]. split; [|split].
      - intros Hp. destruct Cases as [[H1 H2]|[H|H]]; auto; (destruct (Uni KReal H) as (ex & E & _) || destruct (Uni KComplex H) as (ex & E & _));
          apply (Bad _ E); apply Nat.eqb_neq in Hp; now rewrite Hp.
      - intros Ht. destruct Cases as [[H1 H2]|[H|H]]; auto; (destruct (Uni KReal H) as (ex & E & _) || destruct (Uni KComplex H) as (ex & E & _));
          apply (Bad _ E); rewrite Ht; destruct (Nat.eqb _ _); reflexivity.
      - intros Hu Hp Ht.
        assert (Hk : exists k, (forall idx s, at_ (boxed os) idx s -> name_kind s k)).
        { destruct Hu as [H|H]; [exists KReal|exists KComplex]; exact H. }
        destruct Hk as (k & Hk). destruct (Uni k Hk) as (ex & E & P8). rewrite Hp, Nat.eqb_refl in E. cbn [negb] in E.
        assert (T := transposable_pow (prodn do_) P8). rewrite Hp in *.
        destruct prepared as (ri & ro & m & _ & _ & Dro & El & Nm & _).
        assert (Wit : exists i s, at_ (boxed os) i s).
        { destruct ro as [|[s i] ro']; [cbn in El; injection El as <-; congruence|]. exists i, s. apply Dro. now left. }
        destruct Wit as (wi & ws & Wit). assert (Wk := Hk _ _ Wit).
        split; [|split].
        + intros Np. apply (Bad _ E). destruct ty; try congruence; (destruct (transposable (prodn do_)); [exfalso; apply Np; tauto|reflexivity]).
        + intros Pw C. rewrite (proj2 T Pw) in E. unfold cuda_convert. rewrite E.
          destruct C as [[-> O]|[-> O]]; cbn [bind]; apply O in Wit;
            destruct k; try reflexivity; exfalso; apply (kind_disjoint ws); first [exact Wk|exact Wit].
        + intros Pw C. rewrite (proj2 T Pw) in E. unfold cuda_convert. rewrite E.
          assert (HE : 0 < prodn di).
          { rewrite Hp. destruct Pw as (q & ->). clear. induction q; cbn; lia. }
          assert (Run : exists out, launch_convert und garbage order (ex, di, do_) a = Ok out).
          { unfold launch_convert.
            match goal with |- context [grids ?x ?y] => assert (Eg : exists gr, grids x y = Ok gr) by (eexists; reflexivity); destruct Eg as (gr & Eg); rewrite Eg end.
            cbn [bind].
            match goal with |- context [run_groups ?x ?n ?l ?u ?i ?od ?ou] => destruct (groups_ok x n l u i HE od ou) as (o & Eo & _) end.
            rewrite Eo. cbn [bind]. eexists. reflexivity. }
          destruct C as [[-> O]|[-> O]]; cbn [bind]; apply O in Wit; destruct k; cbn [compiles]; auto; exfalso;
            apply (kind_disjoint ws); first [exact Wk|exact Wit].
    Qed.
  End Accepted.

  (* an output that is not a Stokes parameter or correlation, or that the inputs do not produce *)
  Lemma assoc_some {B} s (l : list (string * B)) b : assoc s l = Some b -> In (s, b) l.
  Proof.
    induction l as [|[k b'] l IH]; cbn [assoc]; intros H; [discriminate|].
    destruct (String.eqb_spec k s) as [->|]; [injection H as ->; now left|right; auto].
  Qed.
  Lemma producible_deps s : producible (boxed is) s <->
    exists deps p q fn, assoc s (stokes_conv half) = Some deps /\ first_pair (boxed is) deps p q fn.
  Proof.
    destruct (rect_accept is di Ri Di) as (ri & Ei & Dri).
    assert (Dec : forall x, (exists i, at_ (boxed is) i x) \/ ~ (exists i, at_ (boxed is) i x)).
    { intros x. destruct (assoc x ri) as [i|] eqn:E; [left; exists i; eapply described_assoc; eauto|right; eapply described_none; eauto]. }
    assert (FP : forall (F : Type) (deps : list ((string * string) * F)),
      (exists p q f, first_pair (boxed is) deps p q f) <->
      exists p q, In (p, q) (map fst deps) /\ (exists i, at_ (boxed is) i p) /\ (exists j, at_ (boxed is) j q)).
    { intros F deps. split.
      - intros (p & q & f & H). exists p, q. induction H as [p q f l A B|p q f l p' q' f' N H IH]; cbn [map In fst].
        + auto.
        + destruct IH as (I & J). auto.
      - induction deps as [|[[p q] f] deps IH]; intros (p' & q' & Hin & A & B); [destruct Hin|].
        destruct (Dec p) as [Dp|Dp]; [destruct (Dec q) as [Dq|Dq]|].
        + exists p, q, f. now constructor.
        + destruct Hin as [E|Hin]; [cbn in E; injection E as <- <-; tauto|].
          destruct IH as (x & y & f' & H); [eauto|]. exists x, y, f'. apply fp_next; tauto.
        + destruct Hin as [E|Hin]; [cbn in E; injection E as <- <-; tauto|].
          destruct IH as (x & y & f' & H); [eauto|]. exists x, y, f'. apply fp_next; tauto. }
    assert (Tab : forall pairs, In (s, pairs) recipes <-> exists deps, assoc s (stokes_conv half) = Some deps /\ map fst deps = pairs).
    { intros pairs. split.
      - unfold recipes. cbn [In]. intros H. repeat (destruct H as [H|H]; [injection H as <- <-; eexists; split; reflexivity|]). destruct H.
      - intros (deps & E & <-). apply assoc_some in E. unfold stokes_conv in E. cbn [In] in E.
        repeat (destruct E as [E|E]; [injection E as <- <-; cbn; tauto|]). destruct E. }
    unfold producible. split.
    - intros (pairs & p & q & Hr & Hp & A). apply Tab in Hr. destruct Hr as (deps & E & <-).
      assert (X : exists p q f, first_pair (boxed is) deps p q f) by (apply FP; eauto).
      destruct X as (p' & q' & f & X). exists deps, p', q', f. auto.
    - intros (deps & p & q & fn & E & X). assert (Y : exists p q f, first_pair (boxed is) deps p q f) by eauto.
      apply FP in Y. destruct Y as (p' & q' & I & A). exists (map fst deps), p', q'. split; auto. apply Tab. eauto.
  Qed.
  Lemma loop_bad ri ro : described (boxed is) ri di ->
    (forall s idx, In (s, idx) ro -> assoc s (stokes_conv half) <> None -> producible (boxed is) s) ->
    (exists s idx, In (s, idx) ro /\ assoc s (stokes_conv half) = None) -> gpu_loop half ri ro = Raise ValueError.
  Proof.
    intros D Hp. induction ro as [|[s idx] ro IH]; intros (s' & idx' & Hin & Hn); [destruct Hin|]. cbn [gpu_loop].
    assert (T := assoc_tables L half s). destruct (assoc s (gpu_conv half)) as [d|] eqn:Eg; [|reflexivity].
    destruct (assoc s (stokes_conv half)) as [d0|] eqn:Es; [|tauto].
    assert (Pr : producible (boxed is) s) by (apply (Hp s idx (or_introl eq_refl)); congruence).
    apply producible_deps in Pr. destruct Pr as (deps & p & q & fn & Ed & Fp).
    rewrite Es in Ed. injection Ed as <-. destruct (find_dep_complete _ _ _ _ _ _ _ D Fp) as (j1 & j2 & Ef & _).
    assert (F := find_same ri _ _ T). rewrite Ef in F. destruct (find_gpu ri d) as [[[i1 i2] kf]|]; [|tauto].
    rewrite IH; [reflexivity| |].
    - intros s2 i2' H2. apply (Hp s2 i2'). now right.
    - destruct Hin as [E|Hin]; [injection E as <- <-; congruence|eauto].
  Qed.
  Lemma loop_missing ri ro : described (boxed is) ri di ->
    (forall s idx, In (s, idx) ro -> assoc s (stokes_conv half) <> None) ->
    (exists s idx, In (s, idx) ro /\ ~ producible (boxed is) s) -> gpu_loop half ri ro = Raise MissingConversion.
  Proof.
    intros D Hk. induction ro as [|[s idx] ro IH]; intros (s' & idx' & Hin & Hn); [destruct Hin|]. cbn [gpu_loop].
    assert (T := assoc_tables L half s). assert (Hs := Hk s idx (or_introl eq_refl)).
    destruct (assoc s (stokes_conv half)) as [d0|] eqn:Es; [|congruence].
    destruct (assoc s (gpu_conv half)) as [d|] eqn:Eg; [|tauto].
    assert (F := find_same ri _ _ T). destruct (find_gpu ri d) as [[[i1 i2] kf]|] eqn:Efg; [|reflexivity].
    destruct (find_dep ri d0) as [[[j1 j2] f]|] eqn:Ef; [|tauto].
    rewrite IH; [reflexivity| |].
    - intros s2 i2' H2. apply (Hk s2 i2'). now right.
    - destruct Hin as [E|Hin]; [|eauto]. exfalso. injection E as <- <-. apply Hn.
      destruct (find_dep_some _ _ _ _ _ _ _ D Ef) as (p & q & Fp & _). apply producible_deps. exists d0, p, q, f. auto.
  Qed.
  Lemma bad_setup e : (forall ri ro, described (boxed is) ri di -> described (boxed os) ro do_ -> gpu_loop half ri ro = Raise e) ->
    cuda_convert half ty und garbage order a is os = Raise e.
  Proof.
    intros H. destruct (rect_accept is di Ri Di) as (ri & Ei & Dri). destruct (rect_accept os do_ Ro Do) as (ro & Eo & Dro).
    unfold cuda_convert, generate_kernel, gpu_setup. rewrite Ei, Eo. cbn [bind].
    assert (Sh : list_eqb (lastn (List.length di) (nd_shape a)) di = true).
    { apply list_eqb_eq. rewrite Ha. apply lastn_app. }
    rewrite Sh. cbn [negb]. now rewrite (H ri ro Dri Dro).
  Qed.
  Lemma known_conv s : assoc s (stokes_conv half) <> None <-> In s (STOKES ++ CORRELATIONS)%list.
  Proof.
    split.
    - unfold stokes_conv. cbn [assoc].
      repeat match goal with |- context [String.eqb ?x s] => destruct (String.eqb_spec x s) as [<-|]; [intros _; cbn; tauto|] end.
      intros H. congruence.
    - cbn. intros H. repeat (destruct H as [<-|H]; [cbn; congruence|]). destruct H.
  Qed.
  Theorem unknown_output : ~ only (boxed os) (STOKES ++ CORRELATIONS)%list ->
    (forall idx s, at_ (boxed os) idx s -> In s (STOKES ++ CORRELATIONS)%list -> producible (boxed is) s) ->
    cuda_convert half ty und garbage order a is os = Raise ValueError.
  Proof.
    intros Hn Hp. apply bad_setup. intros ri ro Dri Dro. apply loop_bad; auto.
    - intros s idx Hin Hk. apply Dro in Hin. apply (Hp _ _ Hin). now apply known_conv.
    - assert (G : forall l, incl l ro -> (exists s idx, In (s, idx) l /\ assoc s (stokes_conv half) = None) \/
                    forall s idx, In (s, idx) l -> In s (STOKES ++ CORRELATIONS)%list).
      { induction l as [|[s i] l IH]; intros Hl; [right; intros s i []|].
        destruct (assoc s (stokes_conv half)) eqn:Es; [|left; exists s, i; split; auto; now left].
        destruct IH as [(s' & i' & A & B)|IH]; [intros x Hx; apply Hl; now right| |].
        - left. exists s', i'. split; auto. now right.
        - right. intros s' i' [E|Hin]; [|eauto]. injection E as <- <-. apply known_conv. congruence. }
      destruct (G ro (incl_refl _)) as [H|H]; auto. exfalso. apply Hn. intros idx s Hs. apply Dro in Hs. eauto.
  Qed.
  Theorem missing_inputs : only (boxed os) (STOKES ++ CORRELATIONS)%list ->
    (exists idx s, at_ (boxed os) idx s /\ ~ producible (boxed is) s) ->
    cuda_convert half ty und garbage order a is os = Raise MissingConversion.
  Proof.
    intros Hk (idx & s & Hs & Hn). apply bad_setup. intros ri ro Dri Dro. apply loop_missing; auto.
    - intros s' i' Hin. apply known_conv. apply Dro in Hin. eauto.
    - exists s, idx. split; auto. now apply Dro.
  Qed.
End Verdict.
