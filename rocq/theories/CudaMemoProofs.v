(* memoised generators: generic facts, and the generators whose keys decide everything *)
From Coq Require Import String.
From Verif Require Import Prelude CRing CohModel DaskRimeModel PredictModel CudaPredictModel CudaRimeModel CudaBeamModel CudaCohModel CudaMemoModel CudaMemoSpec.
Open Scope nat_scope.
Open Scope list_scope.

Lemma find_snoc {X} (p : X -> bool) l x : find p (l ++ [x]) = match find p l with Some y => Some y | None => if p x then Some x else None end.
Proof. induction l as [|y l IH]; cbn; auto. destruct (p y); auto. Qed.
Definition succeeds {V} (r : res V) : bool := match r with Ok _ => true | Raise _ => false end.
Section Memo.
  Context {A Ky V : Type} (same : Ky -> Ky -> bool) (key : A -> Ky) (fn : A -> res V).
  Hypothesis D : decides same.
  Lemma cached_after h k : cached same (cache_after same key fn h) k =
    match find (fun b => same (key b) k && succeeds (fn b)) h with
    | Some b => match fn b with Ok v => Some v | Raise _ => None end
    | None => None end.
  Proof.
    revert k. induction h as [|a h IH] using rev_ind; intros k; [reflexivity|].
    unfold cache_after. rewrite fold_left_app. cbn [fold_left]. fold (cache_after same key fn h). rewrite find_snoc.
    unfold memo_call. rewrite (IH (key a)).
    destruct (find (fun b => same (key b) (key a) && succeeds (fn b)) h) as [b|] eqn:Fa.
    - assert (Fb := find_some _ _ Fa). destruct Fb as [Hin Hb]. apply andb_prop in Hb. destruct Hb as [Hk Hs].
      destruct (fn b) as [vb|eb] eqn:Eb; [|discriminate]. cbn [snd]. rewrite IH.
      destruct (find (fun b => same (key b) k && succeeds (fn b)) h) as [c|] eqn:Fk; auto.
      destruct (same (key a) k) eqn:Sk; cbn; auto. apply D in Sk. subst k. congruence.
    - destruct (fn a) as [va|ea] eqn:Ea; cbn [snd succeeds]; rewrite ?andb_false_r.
      + unfold cached at 1. cbn [find fst]. rewrite andb_true_r. destruct (same (key a) k) eqn:Sk.
        * apply D in Sk. subst k. rewrite Fa. now rewrite Ea.
        * fold (cached same (cache_after same key fn h) k). rewrite IH.
          destruct (find (fun b => same (key b) k && succeeds (fn b)) h); auto.
      + rewrite IH. destruct (find (fun b => same (key b) k && succeeds (fn b)) h); auto.
  Qed.
  Lemma memoized_find h a : memoized same key fn h a =
    match find (fun b => same (key b) (key a) && succeeds (fn b)) h with Some b => fn b | None => fn a end.
  Proof.
    unfold memoized, memo_call. rewrite cached_after.
    destruct (find (fun b => same (key b) (key a) && succeeds (fn b)) h) as [b|] eqn:F.
    - apply find_some in F. destruct F as [_ F]. apply andb_prop in F. destruct F as [_ F]. destruct (fn b); [reflexivity|discriminate].
    - destruct (fn a); reflexivity.
  Qed.
  Lemma find_split {X} (p : X -> bool) l x : find p l = Some x -> exists l1 l2, l = l1 ++ x :: l2 /\ p x = true /\ forall y, In y l1 -> p y = false.
  Proof.
    induction l as [|y l IH]; cbn; [discriminate|]. destruct (p y) eqn:P.
    - intros [= <-]. exists [], l. repeat split; auto. intros ? [].
    - intros F. destruct (IH F) as (l1 & l2 & -> & Px & H). exists (y :: l1), l2. repeat split; auto. intros z [<-|Hz]; auto.
  Qed.
  Theorem memoized_spec h a :
    (forall v, first_success key fn h a v -> memoized same key fn h a = Ok v) /\
    (no_success key fn h a -> memoized same key fn h a = fn a) /\
    ((exists v, first_success key fn h a v) \/ no_success key fn h a).
  Proof.
    rewrite memoized_find.
    assert (C : (exists v, first_success key fn h a v) \/ no_success key fn h a).
    { destruct (find (fun b => same (key b) (key a) && succeeds (fn b)) h) as [b|] eqn:F.
      - left. destruct (find_split _ _ _ F) as (l1 & l2 & -> & P & H). apply andb_prop in P. destruct P as [P Q]. apply D in P.
        destruct (fn b) as [v|] eqn:Eb; [|discriminate]. exists v, l1, b, l2. repeat split; auto.
        intros c Hc Hk. specialize (H c Hc). cbn in H. rewrite (proj2 (D _ _) Hk) in H. destruct (fn c) as [|e]; [discriminate|now exists e].
      - right. intros c Hc Hk. assert (H := find_none _ _ F c Hc). cbn in H. rewrite (proj2 (D _ _) Hk) in H.
        destruct (fn c) as [|e]; [discriminate|now exists e]. }
    split; [|split; auto].
    - intros v (l1 & b & l2 & -> & Hk & Hb & H).
      assert (F : find (fun b => same (key b) (key a) && succeeds (fn b)) (l1 ++ b :: l2) = Some b); [|now rewrite F].
      clear C. induction l1 as [|c l1 IH]; cbn.
      + rewrite (proj2 (D _ _) Hk), Hb. reflexivity.
      + destruct (same (key c) (key a)) eqn:S1; cbn.
        * apply D in S1. destruct (H c (or_introl eq_refl) S1) as (e & ->). cbn. apply IH. intros; apply H; auto. now right.
        * apply IH. intros; apply H; auto. now right.
    - intros N. destruct (find (fun b => same (key b) (key a) && succeeds (fn b)) h) as [b|] eqn:F; auto.
      destruct (find_some _ _ F) as [Hin P]. apply andb_prop in P. destruct P as [P Q]. apply D in P.
      destruct (N b Hin P) as (e & E). rewrite E in Q. discriminate.
  Qed.
  Lemma memoized_fresh h a : (forall b v, key b = key a -> fn b = Ok v -> fn a = Ok v) -> memoized same key fn h a = fn a.
  Proof.
    intros H. rewrite memoized_find. destruct (find (fun b => same (key b) (key a) && succeeds (fn b)) h) as [b|] eqn:F; auto.
    apply find_some in F. destruct F as [_ F]. apply andb_prop in F. destruct F as [Hk Hs]. apply D in Hk.
    destruct (fn b) as [v|] eqn:Eb; [|discriminate]. symmetry. eapply H; eauto.
  Qed.
End Memo.

Lemma decides_nat : decides Nat.eqb. Proof. intros x y. apply Nat.eqb_eq. Qed.
Lemma decides_string : decides String.eqb. Proof. intros x y. apply String.eqb_eq. Qed.
Lemma decides_pair {X Y} (ex : X -> X -> bool) (ey : Y -> Y -> bool) : decides ex -> decides ey -> decides (pair_eqb ex ey).
Proof.
  intros Dx Dy [a b] [c d]. unfold pair_eqb. cbn. rewrite andb_true_iff. rewrite (Dx a c), (Dy b d). split; [intros [-> ->]; auto|intros [= -> ->]; auto].
Qed.
Lemma decides_all {X} (ex : X -> X -> bool) : decides ex -> decides (all_eqb ex).
Proof.
  intros Dx. intros l. induction l as [|x l IH]; intros [|y m]; cbn; try (split; auto; discriminate).
  rewrite andb_true_iff, (Dx x y), (IH m). split; [intros [-> ->]; auto|intros [= -> ->]; auto].
Qed.
Lemma decides_opt {X} (ex : X -> X -> bool) : decides ex -> decides (opt_eqb ex).
Proof. intros Dx [x|] [y|]; cbn; try (split; auto; discriminate). rewrite (Dx x y). split; [intros ->; auto|intros [= ->]; auto]. Qed.
Lemma sch_ind' (P : sch -> Prop) : (forall s, P (SStr s)) -> (forall z, P (SInt z)) -> P SOther -> (forall l, Forall P l -> P (SSeq l)) -> forall t, P t.
Proof.
  intros H1 H2 H3 H4. fix IH 1. intros [s|z|l|]; [apply H1|apply H2| |apply H3]. apply H4. induction l as [|x l IHl]; constructor; [apply IH|apply IHl].
Qed.
Lemma decides_sch : decides sch_eqb.
Proof.
  intros x. induction x as [s|z| |l IH] using sch_ind'; intros [s'|z'|m|]; cbn; try (split; auto; discriminate).
  - rewrite String.eqb_eq. split; [intros ->; auto|intros [= ->]; auto].
  - rewrite Z.eqb_eq. split; [intros ->; auto|intros [= ->]; auto].
  - revert m. induction IH as [|x l Hx Hl IHl]; intros [|y m]; try (split; auto; discriminate).
    rewrite andb_true_iff, (Hx y). specialize (IHl m). split.
    + intros [-> H]. apply IHl in H. injection H as ->. auto.
    + intros [= -> ->]. split; auto. now apply IHl.
Qed.

Section Kernels.
  Variables (cuda_type : dt -> res string) (cuda_function : string -> dt -> res string) (result_type : list (option dt) -> res dt).
  Variables (float32 float64 int32 complex64 complex128 : dt) (real_of : dt -> dt).
  Lemma phase_fresh h c : let g := phase_generate cuda_type cuda_function result_type float32 complex64 in
    memoized (all_eqb Nat.eqb) phase_key g h c = g c.
  Proof.
    cbv zeta. apply memoized_fresh; [apply decides_all, decides_nat|]. intros [[a b] c'] v E <-. destruct c as [[p q] r].
    cbn in E. injection E as E1 E2 E3. unfold phase_generate. now rewrite E1, E2, E3.
  Qed.
  Lemma feed_fresh h c : let g := feed_generate cuda_type cuda_function result_type float32 float64 complex64 in
    memoized (pair_eqb Nat.eqb String.eqb) feed_key g h c = g c.
  Proof.
    cbv zeta. apply memoized_fresh; [apply decides_pair; [apply decides_nat|apply decides_string]|]. intros b v E <-.
    unfold feed_key in E. injection E as E1 E2. unfold feed_generate. now rewrite E1, E2.
  Qed.
  Lemma interp_fresh h c : let g := interp_generate cuda_type result_type in
    memoized (all_eqb Nat.eqb) interp_key g h c = g c.
  Proof.
    cbv zeta. apply memoized_fresh; [apply decides_all, decides_nat|]. intros b v E <-.
    unfold interp_key in E. injection E as E1 E2. unfold interp_generate. now rewrite E1, E2.
  Qed.
  Lemma decides_predict : decides predict_same.
  Proof.
    apply decides_pair; [apply decides_pair|apply decides_nat]; [|apply decides_all, decides_nat].
    apply decides_all, decides_opt, decides_pair; apply decides_nat.
  Qed.
  Lemma by_rank (a b : option array_arg) : option_map type_rank a = option_map type_rank b ->
    option_map ar_ndim a = option_map ar_ndim b /\ option_map ar_type a = option_map ar_type b /\ rendered cuda_type a = rendered cuda_type b.
  Proof.
    destruct a as [a|], b as [b|]; cbn; try discriminate; auto. unfold type_rank. intros [= E1 E2]. rewrite E1, E2. auto.
  Qed.
  Lemma predict_fresh h c : let g := predict_generate cuda_type result_type int32 complex128 in
    memoized predict_same predict_key g h c = g c.
  Proof.
    cbv zeta. apply memoized_fresh; [apply decides_predict|]. intros b v E <-. unfold predict_key in E. cbn [map option_map] in E.
    assert (E' := f_equal (fun x => fst (fst x)) E). cbn [fst] in E'.
    assert (C := f_equal (fun x => snd (fst x)) E). assert (O := f_equal snd E). cbn [fst snd] in C, O. clear E.
    injection E' as T1 T1' A1 A1' A2 A2' E1 E2 E3 E4 E5 E6.
    destruct (by_rank _ _ E1) as (P1 & Q1 & R1). destruct (by_rank _ _ E2) as (P2 & Q2 & R2). destruct (by_rank _ _ E3) as (P3 & Q3 & R3).
    destruct (by_rank _ _ E4) as (P4 & Q4 & R4). destruct (by_rank _ _ E5) as (P5 & Q5 & R5). destruct (by_rank _ _ E6) as (P6 & Q6 & R6).
    unfold predict_generate. cbv zeta. now rewrite T1, T1', A1, A1', A2, A2', P1, P2, P3, P4, P5, P6, Q1, Q2, Q3, Q4, Q5, Q6, R1, R2, R3, R4, R5, R6, C, O.
  Qed.
  Lemma main_fresh lw mh nud ncorr bt r : generate_main lw mh nud ncorr bt = Ok r ->
    forall lw' mh' nud', 2 <= lw' -> 2 <= mh' -> 2 <= nud' -> generate_main lw' mh' nud' ncorr bt = Ok r.
  Proof.
    unfold generate_main. destruct (Nat.ltb lw 2 || Nat.ltb mh 2 || Nat.ltb nud 2); [discriminate|]. intros H lw' mh' nud' A B C.
    destruct (Nat.ltb_spec lw' 2); [lia|]. destruct (Nat.ltb_spec mh' 2); [lia|]. destruct (Nat.ltb_spec nud' 2); [lia|]. exact H.
  Qed.
  Lemma beam_fresh h c : interpolable c -> let g := beam_generate cuda_type cuda_function result_type float32 float64 complex64 complex128 real_of in
    memoized (all_eqb Nat.eqb) beam_key g h c = g c.
  Proof.
    intros (lw & mh & nud & rest & Sh & L1 & L2 & L3). cbv zeta. apply memoized_fresh; [apply decides_all, decides_nat|].
    intros b v E G. unfold beam_key in E. injection E as E1 E2 E3 E4 E5 E6 E7 E8 E9 E10 E11.
    revert G. unfold beam_generate. rewrite E1, E2, E3, E4, E5, E6, E7, E8, E9, E10, E11, Sh. cbn [first_three bind].
    destruct (ar_shape (bc_beam b)) as [|x [|y [|z l]]]; cbn [first_three bind]; try discriminate.
    destruct (generate_main x y z (bc_ncorr c) (beam_type_of complex64 complex128 (ar_type (bc_beam c)))) as [bs|] eqn:Gm; [|discriminate].
    rewrite (main_fresh _ _ _ _ _ _ Gm lw mh nud L1 L2 L3). auto.
  Qed.
End Kernels.
