(* The dictionaries of the two implementations, and the schemas that reach the launch. *)
From Coq Require Import String Permutation.
From Verif Require Import Prelude PreludeFacts CRing CohModel CohSpec CohProofs CohProofs2 DaskRimeModel DaskRimeProofs CudaCohModel CudaCohSpec.
Open Scope nat_scope.
Open Scope string_scope.

(* ---------- shapes ---------- *)
Lemma ravel_app fs di : forall f i, inside f fs -> ravel (fs ++ di) (f ++ i) = ravel fs f * prodn di + ravel di i.
Proof.
  intros f i H. induction H as [|x n f fs Hx H IH]; cbn [ravel app]; [cbn; lia|]. rewrite IH.
  assert (P : prodn (fs ++ di) = prodn fs * prodn di); [|rewrite P; lia].
  clear. induction fs; cbn [prodn app]; lia.
Qed.
Lemma unravel_inside shape : forall i, i < prodn shape -> inside (unravel shape i) shape /\ ravel shape (unravel shape i) = i.
Proof.
  induction shape as [|n shape IH]; intros i Hi; cbn [prodn unravel ravel] in *; [split; [constructor|lia]|].
  assert (P : 0 < prodn shape) by nia. destruct (IH (i mod prodn shape)) as (A & B); [apply Nat.mod_upper_bound; lia|].
  split.
  - constructor; auto. apply Nat.div_lt_upper_bound; lia.
  - rewrite B. rewrite Nat.mul_comm. symmetry. apply Nat.div_mod. lia.
Qed.
Lemma ravel_multi_ok idx shape n : ravel_multi idx shape = Ok n <-> inside idx shape /\ n = ravel shape idx.
Proof.
  unfold ravel_multi. split.
  - destruct (Nat.eqb_spec (List.length idx) (List.length shape)) as [L|]; [|discriminate]. cbn [andb].
    destruct (forallb _ _) eqn:F; [|discriminate]. intros [= <-]. split; auto.
    clear - L F. revert shape L F. induction idx as [|i idx IH]; intros [|d shape] L F; cbn in *; try discriminate; [constructor|].
    apply andb_prop in F. destruct F as [F1 F2]. apply Nat.ltb_lt in F1. constructor; auto. apply IH; auto.
  - intros [H ->]. rewrite (inside_len _ _ H), Nat.eqb_refl. cbn [andb].
    assert (F : forallb (fun p : nat * nat => Nat.ltb (fst p) (snd p)) (combine idx shape) = true).
    { induction H as [|i d idx shape Hi H IH]; cbn [combine forallb]; auto. apply andb_true_intro. split; auto. now apply Nat.ltb_lt. }
    now rewrite F.
Qed.

(* names only at the bottom, and at least one: the schema is regular *)
Lemma rect_of_described t r sh : described t r sh -> named t -> r <> [] -> (forall s idx, In (s, idx) r -> inside idx sh) -> rect t sh.
Proof.
  intros (D1 & D2 & D3 & D4) N Hne Hin.
  assert (Pos : Forall (fun d => 0 < d) sh).
  { destruct r as [|[s idx] r']; [congruence|]. specialize (Hin s idx (or_introl eq_refl)).
    clear - Hin. induction Hin; constructor; auto. lia. }
  assert (G : forall k idx e, List.length idx + k = List.length sh -> sub t idx = Some e -> rect e (skipn (List.length idx) sh)).
  { induction k as [|k IH]; intros idx e Hl He.
    - rewrite skipn_all2 by lia. cbn. destruct (N idx e He) as [(l & ->)|]; auto.
      apply D3 in He. assert (nth_error sh (List.length idx) = None) by (apply nth_error_None; lia). congruence.
    - destruct (N idx e He) as [(l & ->)|(s & Hs)].
      + assert (Hd := D3 _ _ He).
        assert (Sk : skipn (List.length idx) sh = List.length l :: skipn (S (List.length idx)) sh).
        { clear - Hd. revert Hd. generalize (List.length idx) as n. induction sh as [|d sh IH]; intros [|n] H; cbn in *; try discriminate.
          - injection H as ->. reflexivity.
          - now apply IH. }
        rewrite Sk. cbn [rect]. exists l. repeat split; auto.
        * rewrite Forall_forall in Pos. apply Pos. eapply nth_error_In; eauto.
        * apply Forall_forall. intros e Hie. apply In_nth_error in Hie. destruct Hie as (i & Hi).
          specialize (IH (idx ++ [i])%list e). rewrite app_length in IH. cbn in IH.
          replace (List.length idx + 1) with (S (List.length idx)) in IH by lia. apply IH; [lia|].
          rewrite (sub_snoc _ _ _ _ He). auto.
      + exfalso. assert (At : at_ t idx s) by (exists e; auto). apply D1 in At. apply Hin in At.
        apply inside_len in At. lia. }
  specialize (G (List.length sh) [] t). cbn [List.length skipn] in G. apply G; auto.
Qed.
(* as many names as elements *)
Lemma names_count t r sh : described t r sh -> rect t sh -> prodn sh <= List.length r.
Proof.
  intros D R. rewrite <- (seq_length (prodn sh) 0).
  rewrite <- (map_length (fun kv : string * list nat => ravel sh (snd kv)) r).
  apply NoDup_incl_length; [apply seq_NoDup|]. intros i Hi. apply in_seq in Hi.
  destruct (unravel_inside sh i) as (A & B); [lia|]. destruct (rect_inside _ _ R _ A) as (s & Hs).
  apply D in Hs. apply in_map_iff. exists (s, unravel sh i). split; auto.
Qed.

Section Tables.
  Context {K : cops} (L : claws K) (half : K).
  Notation cx := (cx K).
  Add Ring Kring : (law_ring K L).
  (* the expression of the kernel is that of the CPU, for real inputs when its result is complex *)
  Definition agree (kf : kind * expr) (f : cx -> cx -> cx) : Prop :=
    forall x y, (fst kf = KComplex -> is_real x /\ is_real y) -> snd kf x y = f x y.
  Definition same_dep (d : (string * string) * (kind * expr)) (d0 : (string * string) * (cx -> cx -> cx)) : Prop :=
    fst d = fst d0 /\ agree (snd d) (snd d0).
  Definition same_row (r : string * list ((string * string) * (kind * expr))) (r0 : string * list ((string * string) * (cx -> cx -> cx))) : Prop :=
    fst r = fst r0 /\ Forall2 same_dep (snd r) (snd r0).
  Lemma tables : Forall2 same_row (gpu_conv half) (stokes_conv half).
  Proof.
    unfold gpu_conv, stokes_conv.
    repeat (apply Forall2_cons || apply Forall2_nil); split; cbn [fst snd]; auto;
      repeat (apply Forall2_cons || apply Forall2_nil); split; cbn [fst snd]; auto; intros [x1 x2] [y1 y2] H; cbn [fst snd] in *;
      unfold xre, xim, xadd, xsub, xmulj, cx0; cbn [fst snd]; auto;
      destruct (H eq_refl) as [E1 E2]; unfold is_real in *; cbn [snd] in *; subst; f_equal; ring.
  Qed.
  Lemma assoc_tables s : match assoc s (gpu_conv half), assoc s (stokes_conv half) with
    | Some d, Some d0 => Forall2 same_dep d d0
    | None, None => True
    | _, _ => False
    end.
  Proof.
    generalize tables. generalize (gpu_conv half) (stokes_conv half). intros l l0 H.
    induction H as [|[k d] [k0 d0] l l0 [E F] H IH]; cbn [assoc]; auto. cbn [fst snd] in *. subst k0.
    destruct (String.eqb k s); auto.
  Qed.
  Lemma find_same inp deps deps0 : Forall2 same_dep deps deps0 ->
    match find_gpu inp deps, find_dep inp deps0 with
    | Some (i1, i2, kf), Some (j1, j2, f) => i1 = j1 /\ i2 = j2 /\ agree kf f
    | None, None => True
    | _, _ => False
    end.
  Proof.
    intros H. induction H as [|[[c1 c2] kf] [[d1 d2] f] l l0 [E F] H IH]; cbn [find_gpu find_dep]; auto.
    cbn [fst snd] in *. injection E as -> ->. destruct (assoc d1 inp); auto. destruct (assoc d2 inp); auto.
  Qed.
  Definition same_entry (e : gpu_entry) (e0 : entry (K := K)) : Prop := fst e = fst e0 /\ agree (snd e) (snd e0).
  Lemma loop_same inp outs bound m0 : setup_loop half inp outs bound = Ok m0 ->
    exists m, gpu_loop half inp outs = Ok m /\ Forall2 same_entry m m0.
  Proof.
    revert bound m0. induction outs as [|[s idx] outs IH]; intros bound m0 H; cbn [setup_loop gpu_loop] in *.
    - injection H as <-. exists []. auto.
    - assert (T := assoc_tables s). destruct (assoc s (gpu_conv half)) as [d|], (assoc s (stokes_conv half)) as [d0|]; try tauto; try discriminate.
      assert (F := find_same inp _ _ T).
      destruct (find_gpu inp d) as [[[i1 i2] kf]|], (find_dep inp d0) as [[[j1 j2] f]|]; try tauto; try discriminate.
      destruct F as (-> & -> & A). apply bind_ok in H. destruct H as (m0' & H & E). injection E as <-.
      destruct (IH _ _ H) as (m & Em & Fm). rewrite Em. cbn. eexists. split; [reflexivity|]. constructor; auto. split; auto.
  Qed.
  Lemma loop_same_rev inp outs bound m : gpu_loop half inp outs = Ok m ->
    exists m0, setup_loop half inp outs bound = Ok m0 /\ Forall2 same_entry m m0.
  Proof.
    revert bound m. induction outs as [|[s idx] outs IH]; intros bound m H; cbn [setup_loop gpu_loop] in *.
    - injection H as <-. exists []. auto.
    - assert (T := assoc_tables s). destruct (assoc s (gpu_conv half)) as [d|], (assoc s (stokes_conv half)) as [d0|]; try tauto; try discriminate.
      assert (F := find_same inp _ _ T).
      destruct (find_gpu inp d) as [[[i1 i2] kf]|], (find_dep inp d0) as [[[j1 j2] f]|]; try tauto; try discriminate.
      destruct F as (-> & -> & A). apply bind_ok in H. destruct H as (m' & H & E). injection E as <-.
      destruct (IH true _ H) as (m0 & Em & Fm). rewrite Em. cbn. eexists. split; [reflexivity|]. constructor; auto. split; auto.
  Qed.

  (* the kind of an output follows from its name *)
  Definition name_kind (s : string) (k : kind) : Prop := In s (match k with KReal => STOKES | KComplex => CORRELATIONS end).
  Lemma find_in inp (deps : list ((string * string) * (kind * @expr K))) i1 i2 kf : find_gpu inp deps = Some (i1, i2, kf) -> exists p : string * string, In (p, kf) deps.
  Proof.
    induction deps as [|[[c1 c2] kf'] deps IH]; cbn [find_gpu]; [discriminate|]. intros H.
    assert (N : find_gpu inp deps = Some (i1, i2, kf) -> exists p : string * string, In (p, kf) (((c1, c2), kf') :: deps)).
    { intros H'. destruct (IH H') as (p & Hp). exists p. now right. }
    destruct (assoc c1 inp); auto. destruct (assoc c2 inp); auto. injection H as <- <- <-. exists (c1, c2). now left.
  Qed.
  Lemma kind_table s deps p k f : assoc s (gpu_conv half) = Some deps -> In (p, (k, f)) deps -> name_kind s k.
  Proof.
    unfold gpu_conv. intros H. unfold name_kind.
    assert (G : forall {B} (l : list (string * B)) b, assoc s l = Some b -> In (s, b) l).
    { clear. intros B l. induction l as [|[k b'] l IH]; cbn [assoc]; intros b H; [discriminate|].
      destruct (String.eqb_spec k s) as [->|]; [injection H as ->; now left|right; auto]. }
    apply G in H. cbn [In] in H.
    repeat (destruct H as [H|H]; [injection H as <- <-; intros X; cbn [In] in X;
       repeat (destruct X as [X|X]; [injection X as _ <- _; cbn; tauto|]); destruct X|]). destruct H.
  Qed.
  Lemma loop_kinds inp outs m : gpu_loop half inp outs = Ok m ->
    Forall2 (fun (o : string * list nat) (e : gpu_entry) => snd (fst e) = snd o /\ name_kind (fst o) (kind_of e)) outs m.
  Proof.
    revert m. induction outs as [|[s idx] outs IH]; intros m H; cbn [gpu_loop] in *.
    - injection H as <-. constructor.
    - destruct (assoc s (gpu_conv half)) as [d|] eqn:Ea; [|discriminate].
      destruct (find_gpu inp d) as [[[i1 i2] [k f]]|] eqn:Ef; [|discriminate].
      apply bind_ok in H. destruct H as (m' & H & E). injection E as <-. constructor; auto. cbn [fst snd kind_of].
      split; auto. destruct (find_in _ _ _ _ _ Ef) as (p & Hp). unfold kind_of. cbn. eapply kind_table; eauto.
  Qed.
  Lemma kind_eqb_eq a b : kind_eqb a b = true <-> a = b.
  Proof. destruct a, b; cbn; split; congruence. Qed.
  Lemma kind_disjoint s : name_kind s KReal -> name_kind s KComplex -> False.
  Proof.
    unfold name_kind. intros H1 H2. cbn in H1, H2.
    repeat (destruct H1 as [<-|H1]; [repeat (destruct H2 as [H2|H2]; [discriminate|]); auto|]). auto.
  Qed.
  Lemma assign_exprs_ok m ishape oshape ex : assign_exprs m ishape oshape = Ok ex <->
    Forall (fun e : @gpu_entry K => let '(i1, i2, oi, _) := e in inside i1 ishape /\ inside i2 ishape /\ inside oi oshape) m /\
    ex = map (fun e : @gpu_entry K => let '(i1, i2, oi, (_, f)) := e in (ravel ishape i1, ravel ishape i2, ravel oshape oi, f)) m.
  Proof.
    revert ex. induction m as [|[[[i1 i2] oi] [k f]] m IH]; intros ex; cbn [assign_exprs map].
    - split; [intros [= <-]; auto|intros [_ ->]; auto].
    - split.
      + intros H. apply bind_ok in H. destruct H as (o & Ho & H). apply bind_ok in H. destruct H as (a & Ha & H).
        apply bind_ok in H. destruct H as (b & Hb & H). apply bind_ok in H. destruct H as (r & Hr & H). injection H as <-.
        apply ravel_multi_ok in Ho, Ha, Hb. destruct Ho as [Ho ->], Ha as [Ha ->], Hb as [Hb ->].
        apply IH in Hr. destruct Hr as [Hf ->]. split; auto.
      + intros [Hf ->]. inversion Hf as [|x l A0 Hf' Hx]; subst. destruct A0 as (A & B & C).
        rewrite (proj2 (ravel_multi_ok oi oshape _) (conj C eq_refl)). cbn [bind].
        rewrite (proj2 (ravel_multi_ok i1 ishape _) (conj A eq_refl)). cbn [bind].
        rewrite (proj2 (ravel_multi_ok i2 ishape _) (conj B eq_refl)). cbn [bind].
        rewrite (proj2 (IH _) (conj Hf' eq_refl)). reflexivity.
  Qed.
End Tables.
