From Coq Require Import String Permutation.
From Verif Require Import Prelude PreludeFacts CRing CohModel CohSpec CohProofs.
Close Scope string_scope.
Open Scope nat_scope.
Open Scope list_scope.

(* ---------- regular schemas ---------- *)
Lemma rect_at t dims : rect t dims -> forall idx s, at_ t idx s -> inside idx dims.
Proof.
  revert t. induction dims as [|d ds IH]; intros t R idx s (e & Se & El).
  - destruct R as (s0 & E0). destruct idx as [|i idx]; [constructor|]. cbn in Se. destruct t; discriminate.
  - destruct R as (l & -> & Hl & Hd & F). destruct idx as [|i idx].
    + injection Se as <-. discriminate.
    + cbn in Se. destruct (nth_error l i) as [x|] eqn:Ei; [|discriminate]. constructor.
      * rewrite <- Hl. apply nth_error_Some. congruence.
      * apply (IH x) with (s := s). { rewrite Forall_forall in F. apply F. eapply nth_error_In; eauto. } now exists e.
Qed.
Lemma rect_inside t dims : rect t dims -> forall idx, inside idx dims -> exists s, at_ t idx s.
Proof.
  revert t. induction dims as [|d ds IH]; intros t R idx H; inversion H as [|x d0 idx' ds0 Hx Hr]; subst.
  - destruct R as (s & E). exists s, t. auto.
  - destruct R as (l & -> & Hl & Hd & F). destruct (nth_error l x) as [e|] eqn:Ex.
    + rewrite Forall_forall in F. destruct (IH e (F e (nth_error_In _ _ Ex)) idx' Hr) as (s & e' & Se & El).
      exists s, e'. split; auto. cbn. now rewrite Ex.
    + apply nth_error_None in Ex. lia.
Qed.
Lemma rect_sub t dims : rect t dims -> forall idx e, sub t idx = Some e -> rect e (skipn (List.length idx) dims).
Proof.
  revert t. induction dims as [|d ds IH]; intros t R idx e Se.
  - destruct idx as [|i idx]; [injection Se as <-; exact R|]. destruct R as (s & E). cbn in Se. destruct t; discriminate.
  - destruct idx as [|i idx]; [injection Se as <-; exact R|].
    destruct R as (l & -> & Hl & Hd & F). cbn in Se. destruct (nth_error l i) as [x|] eqn:Ei; [|discriminate].
    cbn [List.length skipn]. apply (IH x); auto. rewrite Forall_forall in F. apply F. eapply nth_error_In; eauto.
Qed.
Lemma rect_seq t dims l : rect t dims -> forall idx, sub t idx = Some (SSeq l) ->
  nth_error dims (List.length idx) = Some (List.length l).
Proof.
  intros R idx Se. assert (H := rect_sub _ _ R _ _ Se). remember (skipn (List.length idx) dims) as ds eqn:Ed.
  destruct ds as [|d ds]. { destruct H as (s & E). discriminate. }
  destruct H as (l0 & E & Hl & _ & _). injection E as <-.
  rewrite <- (firstn_skipn (List.length idx) dims), <- Ed.
  assert (List.length idx < List.length dims).
  { destruct (Nat.lt_ge_cases (List.length idx) (List.length dims)); auto. rewrite skipn_all2 in Ed by lia. discriminate. }
  rewrite nth_error_app2; rewrite firstn_length, Nat.min_l by lia; [|lia]. rewrite Nat.sub_diag. cbn. congruence.
Qed.
Lemma rect_named t dims : rect t dims -> named t.
Proof.
  intros R idx e Se. assert (H := rect_sub _ _ R _ _ Se). destruct (skipn (List.length idx) dims) as [|d ds].
  - now right.
  - destruct H as (l & -> & _). left. eauto.
Qed.
Lemma rect_consistent t dims : rect t dims -> consistent t.
Proof. intros R i j l m Hi Hj E. apply (rect_seq _ _ _ R) in Hi, Hj. rewrite E in Hi. congruence. Qed.
Lemma rect_level t dims : rect t dims -> forall k, k < List.length dims -> exists idx l, List.length idx = k /\ sub t idx = Some (SSeq l).
Proof.
  revert t. induction dims as [|d ds IH]; intros t R k Hk; cbn in Hk; [lia|].
  destruct R as (l & -> & Hl & Hd & F). destruct k as [|k].
  - exists [], l. auto.
  - destruct l as [|x l]; [cbn in Hl; lia|]. inversion F; subst.
    destruct (IH x H1 k) as (idx & l0 & E & Se); [lia|]. exists (0 :: idx), l0. split; [cbn; lia | exact Se].
Qed.
Lemma nth_error_ext {A} (a b : list A) : (forall k, nth_error a k = nth_error b k) -> a = b.
Proof.
  revert b. induction a as [|x a IH]; intros [|y b] H; auto.
  - specialize (H 0). discriminate.
  - specialize (H 0). discriminate.
  - assert (H0 := H 0). cbn in H0. injection H0 as ->. f_equal. apply IH. intros k. apply (H (S k)).
Qed.
Lemma described_shape t dims r sh : rect t dims -> described t r sh -> sh = dims.
Proof.
  intros R (_ & _ & A & B). apply nth_error_ext. intros k.
  destruct (nth_error dims k) as [d|] eqn:Ed.
  - destruct (rect_level _ _ R k) as (idx & l & <- & Se). { apply nth_error_Some. congruence. }
    rewrite (A _ _ Se). rewrite (rect_seq _ _ _ R _ Se) in Ed. congruence.
  - apply nth_error_None. apply nth_error_None in Ed.
    destruct (Nat.lt_ge_cases k (List.length sh)) as [H|H]; auto.
    destruct (B k H) as (idx & l & <- & Se). apply (rect_seq _ _ _ R) in Se.
    assert (List.length idx < List.length dims) by (apply nth_error_Some; congruence). lia.
Qed.

Lemma rect_accept t dims : rect (boxed t) dims -> distinct (boxed t) ->
  exists r, element_indices_and_shape t = Ok (r, dims) /\ described (boxed t) r dims.
Proof.
  intros R D. destruct (element_indices_total t) as (r & sh & E); auto.
  - eapply rect_named; eauto.
  - eapply rect_consistent; eauto.
  - exists r. destruct (element_indices_ok _ _ _ E) as (H & _). assert (X := described_shape _ _ _ _ R H). subst. auto.
Qed.

(* ---------- dictionaries ---------- *)
Lemma assoc_in {B} s (l : list (string * B)) b : NoDup (map fst l) -> (assoc s l = Some b <-> In (s, b) l).
Proof.
  induction l as [|[k x] l IH]; intros N; cbn. { split; [discriminate | intros []]. }
  inversion N; subst. destruct (String.eqb_spec k s) as [->|Hk].
  - split. { intros E. injection E as ->. now left. }
    intros [E|Hi]; [congruence|]. exfalso. apply H1. now apply (in_map fst) in Hi.
  - rewrite IH by auto. split; [now right|]. intros [E|Hi]; [congruence|auto].
Qed.
Lemma described_assoc t r sh s idx : described t r sh -> (assoc s r = Some idx <-> at_ t idx s).
Proof. intros (A & N & _). rewrite assoc_in by auto. apply A. Qed.
Lemma described_none t r sh s : described t r sh -> assoc s r = None -> ~ exists i, at_ t i s.
Proof. intros H E (i & Hi). apply (described_assoc _ _ _ _ _ H) in Hi. congruence. Qed.
Lemma described_nodup t r sh : described t r sh -> NoDup (map snd r).
Proof.
  intros (A & N & _). assert (F : forall s i, In (s, i) r -> at_ t i s) by (intros; now apply A). clear A.
  induction r as [|[s i] r IH]; cbn; constructor; inversion N; subst.
  - intros Hi. apply in_map_iff in Hi. destruct Hi as ([s' i'] & E & Hi). cbn in E. subst i'.
    destruct (F s i (or_introl eq_refl)) as (e & Se & El). destruct (F s' i (or_intror Hi)) as (e' & Se' & El').
    assert (s = s') by congruence. subst. apply H1. now apply (in_map fst) in Hi.
  - apply IH; auto. intros s0 i0 H0. apply F. now right.
Qed.

Section Conv.
  Context {K : cops} (half : K).
  Notation cx := (CohModel.cx K).
  Notation conv := (stokes_conv half).

  Lemma find_dep_some t r sh deps i1 i2 fn : described t r sh ->
    (find_dep (K := K) r deps = Some (i1, i2, fn) -> exists a b, first_pair t deps a b fn /\ at_ t i1 a /\ at_ t i2 b).
  Proof.
    intros D. induction deps as [|[[a b] f] deps IH]; cbn; intros E; [discriminate|].
    destruct (assoc a r) as [x|] eqn:Ea; [destruct (assoc b r) as [y|] eqn:Eb|].
    - injection E as -> -> ->. apply (described_assoc _ _ _ _ _ D) in Ea, Eb. exists a, b.
      split; [constructor; eauto | auto].
    - destruct (IH E) as (a' & b' & H & H1). exists a', b'. split; auto. constructor; auto.
      intros (_ & X). apply (described_none _ _ _ _ D Eb X).
    - destruct (IH E) as (a' & b' & H & H1). exists a', b'. split; auto. constructor; auto.
      intros (X & _). apply (described_none _ _ _ _ D Ea X).
  Qed.
  Lemma find_dep_complete t r sh deps a b fn : described t r sh -> first_pair t deps a b fn ->
    exists i1 i2, find_dep (K := K) r deps = Some (i1, i2, fn) /\ at_ t i1 a /\ at_ t i2 b.
  Proof.
    intros D H. induction H as [a b f l (i & Hi) (j & Hj)|a b f l a' b' f' Hn H IH].
    - exists i, j. cbn. assert (Hi' := Hi). assert (Hj' := Hj).
      apply (described_assoc _ _ _ _ _ D) in Hi, Hj. rewrite Hi, Hj. auto.
    - destruct IH as (i1 & i2 & E & H1). exists i1, i2. split; auto. cbn.
      destruct (assoc a r) as [x|] eqn:Ea; auto. destruct (assoc b r) as [y|] eqn:Eb; auto.
      apply (described_assoc _ _ _ _ _ D) in Ea, Eb. exfalso. apply Hn. eauto.
  Qed.

  Definition makes (t : sch) (s : string) (fn : cx -> cx -> cx) (i1 i2 : list nat) : Prop :=
    exists deps a b, assoc s conv = Some deps /\ first_pair t deps a b fn /\ at_ t i1 a /\ at_ t i2 b.

  Definition entry_ok (t : sch) (o : string * list nat) (m : entry (K := K)) : Prop :=
    let '(i1, i2, oi, fn) := m in oi = snd o /\ makes t (fst o) fn i1 i2.

  Lemma setup_loop_ok t r sh outs bound : described t r sh ->
    (forall s idx, In (s, idx) outs -> exists fn i1 i2, makes t s fn i1 i2) ->
    exists m, setup_loop half r outs bound = Ok m /\ Forall2 (entry_ok t) outs m.
  Proof.
    intros D. revert bound. induction outs as [|[s idx] outs IH]; intros bound H; cbn [setup_loop].
    - exists []. split; auto.
    - destruct (H s idx (or_introl eq_refl)) as (fn & i1 & i2 & deps & a & b & Ed & Fp & H1 & H2).
      rewrite Ed. destruct (find_dep_complete _ _ _ _ _ _ _ D Fp) as (j1 & j2 & E & J1 & J2). rewrite E.
      destruct (IH true) as (m & Em & Fm). { intros s' i' Hi. apply (H s' i'). now right. }
      rewrite Em. cbn. eexists. split; [reflexivity|]. constructor; auto. cbn. split; auto.
      exists deps, a, b. auto.
  Qed.
  Lemma setup_loop_inv t r sh outs bound m : described t r sh -> setup_loop half r outs bound = Ok m ->
    Forall2 (entry_ok t) outs m.
  Proof.
    intros D. revert bound m. induction outs as [|[s idx] outs IH]; intros bound m H; cbn [setup_loop] in H.
    - injection H as <-. constructor.
    - destruct (assoc s conv) as [deps|] eqn:Ed; [|discriminate].
      destruct (find_dep r deps) as [[[i1 i2] fn]|] eqn:Ef; [|discriminate].
      apply bind_ok in H. destruct H as (m' & H & E). injection E as <-. constructor; [|eauto].
      cbn. split; auto. destruct (find_dep_some _ _ _ _ _ _ _ D Ef) as (a & b & Fp & J). exists deps, a, b. auto.
  Qed.

  (* ---------- arrays ---------- *)
  Lemma lastn_app {A} (a b : list A) : lastn (List.length b) (a ++ b) = b.
  Proof. unfold lastn. rewrite app_length, Nat.add_sub. rewrite skipn_app, skipn_all, Nat.sub_diag. reflexivity. Qed.
  Lemma init_n_app {A} (a b : list A) : init_n (List.length b) (a ++ b) = a.
  Proof. unfold init_n. rewrite app_length, Nat.add_sub. rewrite firstn_app, firstn_all, Nat.sub_diag. cbn. apply app_nil_r. Qed.
  Lemma list_eqb_refl a : list_eqb a a = true.
  Proof. unfold list_eqb. destruct (list_eq_dec Nat.eq_dec a a); congruence. Qed.
  Lemma list_eqb_eq a b : list_eqb a b = true <-> a = b.
  Proof. unfold list_eqb. destruct (list_eq_dec Nat.eq_dec a b); split; congruence. Qed.
  Lemma inside_len idx sh : inside idx sh -> List.length idx = List.length sh.
  Proof. induction 1; cbn; congruence. Qed.

  Lemma ell_get_ok (a : ndarr K) fs di idx : nd_shape a = fs ++ di -> inside idx di ->
    ell_get a idx = Ok {| nd_shape := fs; nd_at := fun r => nd_at a (r ++ idx) |}.
  Proof.
    intros Hs H. assert (L := inside_len _ _ H). unfold ell_get. rewrite Hs, L, lastn_app, init_n_app, app_length.
    destruct (Nat.ltb_spec (List.length fs + List.length di) (List.length di)); [lia|].
    replace (forallb _ _) with true; auto. symmetry. clear - H.
    induction H as [|x y l m Hx H IH]; cbn [combine forallb fst snd]; auto. apply Nat.ltb_lt in Hx. now rewrite Hx.
  Qed.
  Lemma ell_set_ok (a v : ndarr K) fs di idx : nd_shape a = fs ++ di -> inside idx di -> nd_shape v = fs ->
    ell_set a idx v = Ok {| nd_shape := nd_shape a;
      nd_at := fun r => if list_eqb (lastn (List.length idx) r) idx then nd_at v (init_n (List.length idx) r) else nd_at a r |}.
  Proof.
    intros Hs H Hv. unfold ell_set. rewrite (ell_get_ok a fs di idx Hs H). cbn [bind nd_shape].
    now rewrite Hv, list_eqb_refl.
  Qed.

  Lemma lastn_same (f i j : list nat) : List.length i = List.length j -> list_eqb (lastn (List.length j) (f ++ i)) j = list_eqb i j.
  Proof. intros E. rewrite <- E, lastn_app. reflexivity. Qed.

  Lemma apply_mapping_ok (a : ndarr K) fs di do_ m : nd_shape a = fs ++ di -> forall out, nd_shape out = fs ++ do_ ->
    (forall i1 i2 oi fn, In (i1, i2, oi, fn) m -> inside i1 di /\ inside i2 di /\ inside oi do_) ->
    NoDup (map (fun e : entry => snd (fst e)) m) ->
    exists out', apply_mapping a m out = Ok out' /\ nd_shape out' = fs ++ do_ /\
      (forall i1 i2 oi fn f, In (i1, i2, oi, fn) m -> nd_at out' (f ++ oi) = fn (nd_at a (f ++ i1)) (nd_at a (f ++ i2))) /\
      (forall f oi, List.length oi = List.length do_ -> ~ In oi (map (fun e : entry => snd (fst e)) m) -> nd_at out' (f ++ oi) = nd_at out (f ++ oi)).
  Proof.
    intros Ha. induction m as [|[[[i1 i2] oi] fn] m IH]; intros out Ho Hin N.
    - exists out. cbn. repeat split; auto. intros ? ? ? ? ? [].
    - destruct (Hin i1 i2 oi fn (or_introl eq_refl)) as (A1 & A2 & A3). cbn [apply_mapping].
      rewrite (ell_get_ok a fs di i1 Ha A1), (ell_get_ok a fs di i2 Ha A2). cbn [bind nd_shape nd_at].
      rewrite list_eqb_refl. rewrite (ell_set_ok out _ fs do_ oi Ho A3) by reflexivity. cbn [bind].
      cbn [map snd fst] in N. inversion N as [|x l Nx Nm]; subst x l.
      match goal with |- context [apply_mapping a m ?o] => set (o1 := o) end.
      destruct (IH o1) as (out' & E & Sh & V & U); auto.
      { intros j1 j2 oj fj Hj. apply (Hin j1 j2 oj fj). now right. }
      exists out'. split; [exact E|]. split; [exact Sh|]. split.
      + intros j1 j2 oj fj f [X|Hj]; [|now apply V].
        injection X as <- <- <- <-. rewrite U; auto; [|now apply inside_len].
        unfold o1. cbn [nd_at]. rewrite lastn_same by reflexivity. rewrite list_eqb_refl, init_n_app. reflexivity.
      + intros f oj Lj Hj. cbn [map snd fst] in Hj. rewrite U; auto. 2: intros X; apply Hj; now right.
        unfold o1. cbn [nd_at]. rewrite lastn_same by (rewrite (inside_len _ _ A3); auto).
        destruct (list_eqb oj oi) eqn:E0; auto. apply list_eqb_eq in E0. exfalso. apply Hj. now left.
  Qed.

  Theorem convert_ok g (a : ndarr K) is os fs di do_ :
    rect (boxed is) di -> distinct (boxed is) -> rect (boxed os) do_ -> distinct (boxed os) ->
    nd_shape a = fs ++ di ->
    (forall idx s, at_ (boxed os) idx s -> exists deps p q fn, assoc s conv = Some deps /\ first_pair (boxed is) deps p q fn) ->
    exists out, convert half g a is os = Ok out /\ nd_shape out = fs ++ do_ /\
      forall f idx s, at_ (boxed os) idx s ->
      exists deps p q fn i j, assoc s conv = Some deps /\ first_pair (boxed is) deps p q fn /\
        at_ (boxed is) i p /\ at_ (boxed is) j q /\
        nd_at out (f ++ idx) = fn (nd_at a (f ++ i)) (nd_at a (f ++ j)).
  Proof.
    intros Ri Di Ro Do Ha Hp.
    destruct (rect_accept is di Ri Di) as (r & Er & Dr). destruct (rect_accept os do_ Ro Do) as (o & Eo & Dd).
    unfold convert, convert_setup. rewrite Er, Eo. cbn [bind]. rewrite Ha, lastn_app, list_eqb_refl. cbn [negb].
    destruct (setup_loop_ok (boxed is) r di o false Dr) as (m & Em & Fm).
    { intros s idx Hi. apply (proj1 Dd) in Hi. destruct (Hp _ _ Hi) as (deps & p & q & fn & E & Fp).
      destruct (find_dep_complete _ _ _ _ _ _ _ Dr Fp) as (i1 & i2 & _ & H1 & H2).
      exists fn, i1, i2, deps, p, q. auto. }
    rewrite Em. cbn [bind].
    assert (Fin : forall i1 i2 oi fn, In (i1, i2, oi, fn) m -> inside i1 di /\ inside i2 di /\ inside oi do_).
    { assert (G : forall s idx, In (s, idx) o -> at_ (boxed os) idx s) by (intros; now apply (proj1 Dd)).
      clear - Fm Ri Ro G. induction Fm as [|[s idx] [[[j1 j2] oj] fj] o m (E1 & E2) Fm IH]; intros i1 i2 oi fn Hi; [destruct Hi|].
      destruct Hi as [E|Hi].
      - injection E as <- <- <- <-. destruct E2 as (deps & p & q & _ & _ & H1 & H2). cbn in E1. subst oj. repeat split.
        + eapply rect_at; eauto.
        + eapply rect_at; eauto.
        + eapply rect_at; [exact Ro|]. apply G. now left.
      - apply (IH (fun s' i' H' => G s' i' (or_intror H')) _ _ _ _ Hi). }
    assert (Em2 : map (fun e : entry => snd (fst e)) m = map snd o).
    { clear - Fm. induction Fm as [|[s idx] [[[j1 j2] oj] fj] o m (E1 & E2) Fm IH]; cbn; auto. rewrite IH. cbn in E1. congruence. }
    destruct m as [|e0 m0].
    { exfalso. destruct (boxed os) as [| |l|] eqn:Eb; try (rewrite boxed_as_list in Eb; discriminate).
      destruct do_ as [|d ds]. { destruct Ro as (s & E). discriminate. }
      destruct (rect_inside _ _ Ro (repeat 0 (List.length (d :: ds)))) as (s & Hs).
      { clear - Ro. revert Ro. generalize (SSeq l). generalize (d :: ds). clear. induction l as [|d ds IH]; intros t R; [constructor|].
        destruct R as (l0 & -> & Hl & Hd & F). constructor; auto. destruct l0 as [|x l0]; [cbn in Hl; lia|].
        inversion F; subst. eapply IH; eauto. }
      apply (proj1 Dd) in Hs. inversion Fm; subst. destruct Hs. }
    cbn [bind]. set (m := e0 :: m0) in *. unfold convert_impl. rewrite Ha, init_n_app.
    destruct (apply_mapping_ok a fs di do_ m Ha {| nd_shape := fs ++ do_; nd_at := g |} eq_refl Fin) as (out & Eout & Sh & V & _).
    { rewrite Em2. eapply described_nodup; eauto. }
    exists out. split; [exact Eout|]. split; [exact Sh|]. intros f idx s Hs.
    assert (Hi : In (s, idx) o) by (now apply (proj1 Dd)).
    assert (G : exists i1 i2 fn, In (i1, i2, idx, fn) m /\ makes (boxed is) s fn i1 i2).
    { clear - Fm Hi. induction Fm as [|[s0 idx0] [[[j1 j2] oj] fj] o m (E1 & E2) Fm IH]; [destruct Hi|].
      destruct Hi as [E|Hi].
      - injection E as -> ->. cbn in E1, E2. subst oj. exists j1, j2, fj. split; auto. now left.
      - destruct (IH Hi) as (i1 & i2 & fn & H1 & H2). exists i1, i2, fn. split; auto. now right. }
    destruct G as (i1 & i2 & fn & Hm & deps & p & q & E1 & Fp & P1 & P2).
    exists deps, p, q, fn, i1, i2. repeat split; auto.
  Qed.

  Theorem convert_nothing g (a : ndarr K) is os :
    named (boxed is) -> distinct (boxed is) -> consistent (boxed is) -> named (boxed os) -> consistent (boxed os) ->
    (forall idx s, ~ at_ (boxed os) idx s) -> convert half g a is os = Raise ValueError.
  Proof.
    intros N1 D1 C1 N2 C2 No. destruct (element_indices_total is N1 D1 C1) as (r & sh & E1).
    destruct (element_indices_total os N2) as (r' & sh' & E2); [intros i j s A; now apply No in A|exact C2|].
    unfold convert, convert_setup. rewrite E1. cbn [bind]. rewrite E2. cbn [bind].
    destruct (list_eqb _ sh); [|reflexivity]. cbn [negb].
    destruct r' as [|[s idx] r']; [reflexivity|]. exfalso. apply (No idx s).
    destruct (element_indices_ok os _ _ E2) as [De _]. apply (described_assoc (boxed os) ((s, idx) :: r') sh' s idx De). cbn. now rewrite String.eqb_refl.
  Qed.
  Theorem convert_needs g (a out : ndarr K) is os : convert half g a is os = Ok out ->
    named (boxed is) /\ distinct (boxed is) /\ consistent (boxed is) /\
    named (boxed os) /\ distinct (boxed os) /\ consistent (boxed os) /\
    (exists fs sh r, described (boxed is) r sh /\ nd_shape a = fs ++ sh) /\
    (forall idx s, at_ (boxed os) idx s -> exists deps p q fn, assoc s conv = Some deps /\ first_pair (boxed is) deps p q fn).
  Proof.
    intros H. unfold convert in H. apply bind_ok in H. destruct H as ([[m ish] osh] & H & _).
    unfold convert_setup in H. apply bind_ok in H. destruct H as ([r sh] & Er & H).
    apply bind_ok in H. destruct H as ([o so] & Eo & H).
    destruct (element_indices_ok _ _ _ Er) as (Dr & N1 & N2 & N3).
    destruct (element_indices_ok _ _ _ Eo) as (Dd & M1 & M2 & M3).
    destruct (list_eqb (lastn (List.length sh) (nd_shape a)) sh) eqn:E; [|discriminate]. cbn [negb] in H.
    apply bind_ok in H. destruct H as (m' & Em & H).
    repeat (split; [assumption|]). split.
    - exists (firstn (List.length (nd_shape a) - List.length sh) (nd_shape a)), sh, r. split; auto.
      apply list_eqb_eq in E. unfold lastn in E. rewrite <- (firstn_skipn (List.length (nd_shape a) - List.length sh) (nd_shape a)) at 1.
      now rewrite E.
    - intros idx s Hs. apply (proj1 Dd) in Hs. assert (Fm := setup_loop_inv _ _ _ _ _ _ Dr Em). clear - Fm Hs.
      induction Fm as [|[s0 idx0] [[[j1 j2] oj] fj] o m (E1 & E2) Fm IH]; [destruct Hs|].
      destruct Hs as [E|Hi]; auto. injection E as -> ->. destruct E2 as (deps & p & q & A & B & _). cbn in A. eauto 6.
  Qed.
End Conv.
