(* Proofs about baseline_jones_multiply. *)
From Coq Require Import String Lia Permutation Ring.
From Verif Require Import Prelude PreludeFacts CRing PredictModel PredictSpec PipeModel PipeSpec.
Open Scope nat_scope.
Open Scope list_scope.

Lemma member_in l ls : member l ls = true <-> In l ls.
Proof.
  unfold member. rewrite existsb_exists. split; [intros (x & I & E); apply String.eqb_eq in E; now subst |].
  intros I. exists l. split; [exact I | apply String.eqb_refl].
Qed.
Lemma nodup_b_spec ls : nodup_b ls = true <-> NoDup ls.
Proof.
  induction ls as [|l r IH]; cbn; [split; [constructor | reflexivity] |].
  rewrite Bool.andb_true_iff, IH, Bool.negb_true_iff. split.
  - intros (N & D). constructor; auto. intro I. apply member_in in I. congruence.
  - intros D. inversion D as [|? ? N D']; subst. split; auto. destruct (member l r) eqn:E; auto. apply member_in in E. contradiction.
Qed.

Section Sizes.
  Variable sz : string -> nat.
  Definition sized (l : list (string * nat)) : Prop := forall x n, In (x, n) l -> n = sz x.
  Lemma size_of_in sizes l : sized sizes -> In l (map fst sizes) -> size_of l sizes = Some (sz l).
  Proof.
    induction sizes as [|(x, n) r IH]; intros H I; [destruct I |]. cbn. destruct (String.eqb_spec l x) as [->|N].
    - f_equal. apply H. left. reflexivity.
    - apply IH; [intros y m Hy; apply H; right; exact Hy | destruct I as [E|I]; [cbn in E; congruence | exact I]].
  Qed.
  Lemma size_of_out sizes l : ~ In l (map fst sizes) -> size_of l sizes = None.
  Proof.
    induction sizes as [|(x, n) r IH]; intros I; [reflexivity |]. cbn. destruct (String.eqb_spec l x) as [->|N].
    - exfalso. apply I. left. reflexivity.
    - apply IH. intro X. apply I. right. exact X.
  Qed.
  Lemma sizes_ok labels : forall seen, sized labels -> sized seen -> NoDup (map fst seen) ->
    exists out, sizes_of labels seen = Ok out /\ NoDup (map fst out) /\ sized out /\
      forall l, In l (map fst out) <-> In l (map fst seen) \/ In l (map fst labels).
  Proof.
    induction labels as [|(l, n) r IH]; intros seen Hl Hs Nd.
    - exists seen. cbn. repeat split; auto. tauto.
    - cbn. assert (Hr : sized r) by (intros y m Hy; apply Hl; right; exact Hy).
      destruct (in_dec String.string_dec l (map fst seen)) as [I|I].
      + rewrite (size_of_in _ _ Hs I). rewrite (Hl l n) by (left; reflexivity). rewrite Nat.eqb_refl.
        destruct (IH seen Hr Hs Nd) as (out & E & N' & S' & M). exists out. repeat split; auto; intros X.
        * apply M in X. tauto.
        * apply M. destruct X as [X|[X|X]]; auto. subst. auto.
      + rewrite (size_of_out _ _ I). destruct (IH (seen ++ [(l, n)]) Hr) as (out & E & N' & S' & M).
        * intros y m Hy. apply in_app_or in Hy. destruct Hy as [Hy|[Hy|[]]]; [apply Hs; exact Hy | apply Hl; left; exact Hy].
        * rewrite map_app. cbn. apply NoDup_rev in Nd. rewrite <- (rev_involutive (map fst seen ++ [l])). apply NoDup_rev.
          rewrite rev_app_distr. cbn. constructor; auto. rewrite <- in_rev. exact I.
        * exists out. repeat split; auto; intros X.
          -- apply M in X. rewrite map_app, in_app_iff in X. cbn in X. tauto.
          -- apply M. rewrite map_app, in_app_iff. cbn. tauto.
  Qed.
End Sizes.

Section E.
  Context {K : cops}.
  Notation tens := (tens K).
  Notation arg := (@arg K).

  Section Einsum.
    Variable sz : string -> nat.
    Lemma labels_sized ins (ops : list tens) : Forall2 (fun ls a => t_shape a = map sz ls) ins ops ->
      sized sz (concat (map (fun p => combine (fst p) (t_shape (snd p))) (combine ins ops))).
    Proof.
      induction 1 as [|ls a ins ops E F IH]; intros x n H; [destruct H |]. cbn in H. apply in_app_or in H. destruct H as [H|H].
      - rewrite E in H. clear -H. induction ls as [|y ls IH]; [destruct H |]. destruct H as [H|H]; [congruence | apply IH; exact H].
      - apply IH. exact H.
    Qed.
    Lemma labels_keys ins (ops : list tens) : Forall2 (fun ls a => t_shape a = map sz ls) ins ops ->
      map fst (concat (map (fun p => combine (fst p) (t_shape (snd p))) (combine ins ops))) = concat ins.
    Proof.
      induction 1 as [|ls a ins ops E F IH]; [reflexivity |]. cbn. rewrite map_app, IH. f_equal. rewrite E.
      clear. induction ls as [|y ls IH]; cbn; [reflexivity | now rewrite IH].
    Qed.
    Lemma lengths_ok ins (ops : list tens) : Forall2 (fun ls a => t_shape a = map sz ls) ins ops ->
      forallb (fun p : list string * tens => Nat.eqb (List.length (fst p)) (List.length (t_shape (snd p)))) (combine ins ops) = true.
    Proof.
      induction 1 as [|ls a ins ops E F IH]; [reflexivity |]. cbn. rewrite IH, E, map_length, Nat.eqb_refl. reflexivity.
    Qed.
    Lemma einsum_ok ins out (ops : list tens) : Forall2 (fun ls a => t_shape a = map sz ls) ins ops ->
      NoDup out -> incl out (concat ins) ->
      exists o summed, einsum ins out ops = Ok o /\ t_shape o = map sz out /\ NoDup summed /\
        (forall l n, In (l, n) summed <-> In l (concat ins) /\ ~ In l out /\ n = sz l) /\
        forall idx, t_at o idx = sum_over summed (operands ins ops) (bind_all out idx).
    Proof.
      intros F Nd Inc. unfold einsum. rewrite (lengths_ok _ _ F). cbn [negb].
      destruct (sizes_ok sz _ [] (labels_sized _ _ F)) as (sizes & E & N & S & M); [intros ? ? [] | constructor |].
      rewrite E. cbn [bind]. rewrite (labels_keys _ _ F) in M.
      assert (A : forall l, In l out -> size_of l sizes = Some (sz l)).
      { intros l H. apply size_of_in; auto. apply M. right. apply Inc. exact H. }
      assert (B : forallb (fun l => match size_of l sizes with Some _ => true | None => false end) out = true).
      { apply forallb_forall. intros l H. now rewrite A. }
      rewrite B. apply nodup_b_spec in Nd. rewrite Nd. cbn [andb negb].
      eexists. eexists. split; [reflexivity |]. cbn [t_shape t_at]. split; [|split; [|split; [|reflexivity]]].
      - apply map_ext_in. intros l H. now rewrite A.
      - apply NoDup_filter. apply (NoDup_map_inv fst). exact N.
      - intros l n. rewrite filter_In. cbn [fst]. rewrite Bool.negb_true_iff. split.
        + intros (H & H'). split; [|split; [|apply S; exact H]].
          * apply (in_map fst) in H. apply M in H. cbn in H. tauto.
          * intro X. apply member_in in X. congruence.
        + intros (H & H' & ->). split.
          * assert (X : In l (map fst sizes)) by (apply M; right; exact H). apply in_map_iff in X. destruct X as ((l', n) & X & Y).
            cbn in X. subst l'. rewrite <- (S _ _ Y). exact Y.
          * destruct (member l out) eqn:X; [apply member_in in X; contradiction | reflexivity].
    Qed.
    Lemma einsum_refused ins out (ops : list tens) : Forall2 (fun ls a => t_shape a = map sz ls) ins ops ->
      ~ NoDup out \/ (exists l, In l out /\ ~ In l (concat ins)) -> einsum ins out ops = Raise ValueError.
    Proof.
      intros F H. unfold einsum. rewrite (lengths_ok _ _ F). cbn [negb].
      destruct (sizes_ok sz _ [] (labels_sized _ _ F)) as (sizes & E & N & S & M); [intros ? ? [] | constructor |].
      rewrite E. cbn [bind]. rewrite (labels_keys _ _ F) in M.
      replace (nodup_b out && _)%bool with false; [reflexivity |]. symmetry. apply Bool.andb_false_iff. destruct H as [H|(l & H & H')].
      - left. destruct (nodup_b out) eqn:X; [apply nodup_b_spec in X; contradiction | reflexivity].
      - right. destruct (forallb _ out) eqn:X; [|reflexivity]. rewrite forallb_forall in X. specialize (X l H).
        rewrite size_of_out in X; [discriminate |]. intro Y. apply M in Y. destruct Y as [[]|Y]. contradiction.
    Qed.
  End Einsum.

  (* ---------- the terms ---------- *)
  Definition L (k : nat) : string := nth k corr_letters EmptyString.
  Fixpoint ins_of (full : bool) (index : nat) (args : list arg) : list (list string) :=
    match args with
    | [] => []
    | t :: r =>
        if is_bright t then (if full then ["s"; "f"; L index; L (S index)] else ["s"; "f"; "i"])%string :: ins_of full (S index) r
        else (if has_rows t then ["s"; "r"; "f"] else ["s"])%string :: ins_of full index r
    end.
  Definition size (full : bool) (ns nr nf nc : nat) (l : string) : nat :=
    if String.eqb l "s" then ns else if String.eqb l "r" then nr else if String.eqb l "f" then nf else if full then 2 else nc.
  Lemma name_cases full ns nr nf nc (t : arg) : fits full ns nr nf nc t ->
    (fst t = "brightness" \/ fst t = "phase_delay" \/ fst t = "gauss_shape" \/ fst t = "spi")%string.
  Proof.
    unfold fits, term_shape. destruct (String.eqb_spec (fst t) "brightness"); auto. destruct (String.eqb_spec (fst t) "phase_delay"); auto.
    destruct (String.eqb_spec (fst t) "gauss_shape"); auto. destruct (String.eqb_spec (fst t) "spi"); auto. discriminate.
  Qed.
  Lemma letters_size full ns nr nf nc k : k <= 3 -> size full ns nr nf nc (L k) = if full then 2 else nc.
  Proof. intros H. do 4 (destruct k as [|k]; [reflexivity |]). lia. Qed.

  Lemma brights_cons (t : arg) r : brights (t :: r) = if is_bright t then snd t :: brights r else brights r.
  Proof. unfold brights. cbn. destruct (is_bright t); reflexivity. Qed.

  Lemma schemas_ok (full : bool) corrs ns nr nf nc (args : list arg) : Nat.eqb corrs 4 = full -> Forall (fits full ns nr nf nc) args ->
    forall index, (full = true -> index + List.length (brights args) <= 3) ->
    input_schemas corrs index args = Ok (ins_of full index args, if full then index + List.length (brights args) else index) /\
    Forall2 (fun ls a => t_shape a = map (size full ns nr nf nc) ls) (ins_of full index args) (map snd args).
  Proof.
    intros C F. induction F as [|t r Ft F IH]; intros index H.
    - cbn. destruct full; rewrite ?Nat.add_0_r; split; auto.
    - rewrite brights_cons in *. destruct t as (name, a). pose proof (name_cases _ _ _ _ _ _ Ft) as Nm. unfold fits in Ft. cbn [fst snd] in *.
      destruct Nm as [-> | [-> | [-> | ->]]]; cbn in Ft; injection Ft as Ft; cbn [is_bright has_rows fst snd String.eqb Ascii.eqb Bool.eqb orb] in *;
        cbn [input_schemas term_schema ins_of is_bright has_rows fst snd String.eqb Ascii.eqb Bool.eqb orb map].
      + rewrite C. destruct full.
        * cbn [List.length] in H. assert (I : index < 3) by (specialize (H eq_refl); lia).
          assert (X : firstn 2 (skipn index corr_letters) = [L index; L (S index)]) by (do 3 (destruct index as [|index]; [reflexivity |]); lia).
          rewrite X. cbn [app List.length]. rewrite <- Ft. cbn [List.length Nat.eqb negb].
          destruct (IH (S index)) as (E & F2); [intros _; specialize (H eq_refl); lia |]. rewrite E. cbn [bind]. split.
          -- f_equal. f_equal. lia.
          -- constructor; [|exact F2]. rewrite <- Ft. cbn [map]. rewrite !letters_size by lia. reflexivity.
        * rewrite <- Ft. cbn [List.length Nat.eqb negb]. destruct (IH index) as (E & F2); [discriminate |]. rewrite E. cbn [bind].
          assert (Y : forall i j l, ins_of false i l = ins_of false j l).
          { clear. intros i j l. revert i j. induction l as [|t l IH]; intros i j; [reflexivity |]. cbn.
            destruct (is_bright t); f_equal; apply IH. }
          rewrite (Y (S index) index). split; [reflexivity |]. constructor; [rewrite <- Ft; reflexivity | exact F2].
      + rewrite <- Ft. cbn [List.length Nat.eqb negb]. destruct (IH index) as (E & F2); [exact H |]. rewrite E. cbn [bind]. split; [reflexivity |].
        constructor; [rewrite <- Ft; reflexivity | exact F2].
      + rewrite <- Ft. cbn [List.length Nat.eqb negb]. destruct (IH index) as (E & F2); [exact H |]. rewrite E. cbn [bind]. split; [reflexivity |].
        constructor; [rewrite <- Ft; reflexivity | exact F2].
      + rewrite <- Ft. cbn [List.length Nat.eqb negb]. destruct (IH index) as (E & F2); [exact H |]. rewrite E. cbn [bind]. split; [reflexivity |].
        constructor; [rewrite <- Ft; reflexivity | exact F2].
  Qed.

  (* which letters occur *)
  Lemma letters_upper full (args : list arg) : forall index l, In l (concat (ins_of full index args)) ->
    l = "s"%string \/ (l = "r"%string /\ existsb has_rows args = true) \/ l = "f"%string \/
    (brights args <> [] /\ if full then exists k, index <= k <= index + List.length (brights args) /\ l = L k else l = "i"%string).
  Proof.
    induction args as [|t r IH]; intros index l H; [destruct H |]. rewrite brights_cons. cbn [existsb]. cbn [ins_of] in H.
    destruct (is_bright t) eqn:B; cbn [concat] in H; apply in_app_or in H; destruct H as [H|H].
    - destruct full.
      + destruct H as [H|[H|[H|[H|[]]]]]; subst; auto; right; right; right; (split; [discriminate |]); cbn [List.length].
        * exists index. split; [lia | reflexivity].
        * exists (S index). split; [lia | reflexivity].
      + destruct H as [H|[H|[H|[]]]]; subst; auto. right; right; right. split; [discriminate | reflexivity].
    - apply IH in H. destruct H as [H|[(H & H')|[H|(H & H')]]]; auto.
      + right; left. split; [exact H |]. rewrite H'. apply Bool.orb_true_r.
      + right; right; right. split; [discriminate |]. destruct full; [|exact H']. destruct H' as (k & Hk & E). exists k. split; [cbn; lia | exact E].
    - destruct (has_rows t) eqn:R.
      + destruct H as [H|[H|[H|[]]]]; subst; auto.
      + destruct H as [H|[]]; subst; auto.
    - apply IH in H. destruct H as [H|[(H & H')|[H|(H & H')]]]; auto.
      right; left. split; [exact H |]. rewrite H'. apply Bool.orb_true_r.
  Qed.
  Lemma letters_rows full (args : list arg) : forall index, Forall (fun t => is_bright t = true -> has_rows t = false) args ->
    existsb has_rows args = true -> In "r"%string (concat (ins_of full index args)).
  Proof.
    induction args as [|t r IH]; intros index F H; [discriminate |]. cbn [existsb] in H. inversion F as [|? ? Ft F']; subst. cbn [ins_of].
    destruct (is_bright t) eqn:B; cbn [concat]; apply in_or_app.
    - right. apply IH; auto. rewrite (Ft eq_refl) in H. exact H.
    - destruct (has_rows t) eqn:R; [left; cbn; auto | right; apply IH; auto].
  Qed.
  Lemma bright_rows (t : arg) : is_bright t = true -> has_rows t = false.
  Proof. unfold is_bright, has_rows. intros E. apply String.eqb_eq in E. rewrite E. reflexivity. Qed.
  Lemma letters_bright full (args : list arg) : forall index, brights args <> [] ->
    In "s"%string (concat (ins_of full index args)) /\ In "f"%string (concat (ins_of full index args)) /\
    if full then forall k, index <= k <= index + List.length (brights args) -> In (L k) (concat (ins_of full index args))
    else In "i"%string (concat (ins_of full index args)).
  Proof.
    induction args as [|t r IH]; intros index H; [contradiction |]. rewrite brights_cons in *. cbn [ins_of].
    destruct (is_bright t) eqn:B; cbn [concat].
    - destruct full; [|repeat split; apply in_or_app; left; cbn; auto].
      split; [apply in_or_app; left; cbn; auto | split; [apply in_or_app; left; cbn; auto |]].
      intros k Hk. cbn [List.length] in Hk. apply in_or_app.
      destruct (Nat.eq_dec k index) as [->|N1]; [left; cbn; auto |].
      destruct (Nat.eq_dec k (S index)) as [->|N2]; [left; cbn; auto |].
      right. destruct (brights r) as [|b l] eqn:Br; [cbn in Hk; lia |].
      destruct (IH (S index)) as (_ & _ & X); [discriminate |]. apply X. cbn [List.length] in *. lia.
    - destruct (IH index H) as (X1 & X2 & X3). split; [apply in_or_app; right; exact X1 | split; [apply in_or_app; right; exact X2 |]].
      destruct full; [intros k Hk; apply in_or_app; right; apply X3; exact Hk | apply in_or_app; right; exact X3].
  Qed.

  Hypothesis Hl : claws K.
  Add Ring Kr : (law_ring K Hl).
  Open Scope K_scope.

  Fixpoint bchain (full : bool) (l : list tens) (index : nat) (e : env) : K :=
    match l with
    | [] => 1
    | b :: r => t_at b (if full then [e "s"; e "f"; e (L index); e (L (S index))] else [e "s"; e "f"; e "i"])%string * bchain full r (S index) e
    end.
  Lemma operands_eq full (args : list arg) : forall index e,
    operands (ins_of full index args) (map snd args) e = factor args (e "s"%string) (e "r"%string) (e "f"%string) * bchain full (brights args) index e.
  Proof.
    induction args as [|t r IH]; intros index e; [cbn; ring |]. rewrite brights_cons. cbn [ins_of factor map].
    destruct (is_bright t); cbn [operands].
    - rewrite IH. cbn [bchain]. destruct full; cbn [map]; ring.
    - rewrite IH. destruct (has_rows t); cbn [map]; ring.
  Qed.

  Lemma only_one {A} (l : list A) a : NoDup l -> (forall x, In x l <-> x = a) -> l = [a].
  Proof.
    intros N H. apply Permutation_length_1_inv. apply NoDup_Permutation; [repeat constructor; intros [] | exact N |].
    intros x. rewrite H. cbn. split; [intros [E|[]]; auto | auto].
  Qed.
  Lemma only_two {A} (l : list A) a b : a <> b -> NoDup l -> (forall x, In x l <-> x = a \/ x = b) -> l = [a; b] \/ l = [b; a].
  Proof.
    intros D N H. apply Permutation_length_2_inv. apply NoDup_Permutation; [|exact N |].
    - constructor; [intros [E|[]]; congruence | repeat constructor; intros []].
    - intros x. rewrite H. cbn. split; [intros [E|[E|[]]]; auto | intros [E|E]; auto].
  Qed.

  Theorem product_full ns nr nf nc (args : list arg) : Forall (fits true ns nr nf nc) args ->
    (1 <= List.length (brights args) <= 3)%nat -> existsb has_rows args = true ->
    exists o, baseline_jones_multiply 4 args = Ok o /\ t_shape o = [ns; nr; nf; 2; 2]%nat /\
      forall s r f i j, (i < 2)%nat -> (j < 2)%nat -> t_at o [s; r; f; i; j] = factor args s r f * matrix_product (brights args) s f i j.
  Proof.
    intros F B R. set (m := List.length (brights args)) in *.
    destruct (schemas_ok true 4 ns nr nf nc args eq_refl F 0) as (E & F2); [intros _; lia |].
    unfold baseline_jones_multiply. rewrite E. cbn [bind].
    change (0 + List.length (brights args))%nat with m.
    assert (Eo : output_schema 4 m = Ok ["s"; "r"; "f"; "i"; L m]%string) by (unfold output_schema; cbn [Nat.eqb]; destruct m as [|[|[|[|m]]]]; try lia; reflexivity).
    rewrite Eo. cbn [bind].
    assert (Nb : brights args <> []) by (intro X; unfold m in B; rewrite X in B; cbn in B; lia).
    assert (FB : Forall (fun t : arg => is_bright t = true -> has_rows t = false) args) by (apply Forall_forall; intros t _; apply bright_rows).
    destruct (letters_bright true args 0 Nb) as (Ls & Lf & Lk). pose proof (letters_rows true args 0 FB R) as Lr.
    destruct (einsum_ok (size true ns nr nf nc) _ ["s"; "r"; "f"; "i"; L m]%string _ F2) as (o & summed & Eq & Sh & Nd & Sm & V).
    - destruct m as [|[|[|[|m]]]]; try lia; repeat constructor; cbn; intuition discriminate.
    - intros l [<-|[<-|[<-|[<-|[<-|[]]]]]]; auto. { apply (Lk 0%nat). fold m. lia. } { apply Lk. fold m. lia. }
    - exists o. split; [exact Eq |]. split.
      + rewrite Sh. cbn [map]. rewrite letters_size by lia. reflexivity.
      + intros s r f i j Hi Hj.
        rewrite V. clear V.
        assert (Mem : forall l n, In (l, n) summed <-> n = 2%nat /\ exists k, (1 <= k < m)%nat /\ l = L k).
        { intros l n. rewrite Sm. split.
          - intros (I & O & ->). destruct (letters_upper true args 0 l I) as [->|[(-> & _)|[->|(_ & k & Hk & ->)]]]; try (exfalso; apply O; cbn; tauto).
            fold m in Hk. assert (k <> 0%nat) by (intros ->; apply O; cbn; tauto). assert (k <> m) by (intros ->; apply O; cbn; tauto).
            split; [apply letters_size; lia |]. exists k. split; [lia | reflexivity].
          - intros (-> & k & Hk & ->). split; [apply Lk; fold m; lia |]. split; [|symmetry; apply letters_size; lia].
            destruct m as [|[|[|[|m]]]]; try lia; destruct k as [|[|[|k]]]; try lia; cbn; intuition discriminate. }
        clear Sm. unfold m in Mem. fold m.
        destruct (brights args) as [|b1 [|b2 [|b3 [|b4 bs]]]] eqn:Br; cbn [List.length] in m, B, Mem; try lia.
        * assert (summed = []) as ->.
          { destruct summed as [|(l, n) s']; auto. destruct (proj1 (Mem l n) (or_introl eq_refl)) as (_ & k & Hk & _). lia. }
          subst m. cbn [sum_over]. rewrite operands_eq, Br. cbn. unfold jone, jprod. cbn [csum]. destruct j as [|[|j]]; [| |lia]; cbn; ring.
        * assert (summed = [("j"%string, 2%nat)]) as ->.
          { apply only_one; auto. intros (l, n). rewrite Mem. split.
            - intros (-> & k & Hk & ->). assert (k = 1%nat) as -> by lia. reflexivity.
            - intros X. injection X as -> ->. split; auto. exists 1%nat. split; [lia | reflexivity]. }
          subst m. cbn [sum_over csum]. rewrite !operands_eq, Br. cbn. unfold jone, jprod. cbn [csum]. destruct j as [|[|j]]; [| |lia]; cbn; ring.
        * assert (summed = [("j"%string, 2%nat); ("k"%string, 2%nat)] \/ summed = [("k"%string, 2%nat); ("j"%string, 2%nat)]) as [-> | ->].
          { apply only_two; auto; [discriminate |]. intros (l, n). rewrite Mem. split.
            - intros (-> & k & Hk & ->). assert (k = 1%nat \/ k = 2%nat) as [-> | ->] by lia; auto.
            - intros [X|X]; injection X as -> ->; (split; auto); [exists 1%nat | exists 2%nat]; (split; [lia | reflexivity]). }
          -- subst m. cbn [sum_over csum]. rewrite !operands_eq, Br. cbn. unfold jone, jprod. cbn [csum]. destruct j as [|[|j]]; [| |lia]; cbn; ring.
          -- subst m. cbn [sum_over csum]. rewrite !operands_eq, Br. cbn. unfold jone, jprod. cbn [csum]. destruct j as [|[|j]]; [| |lia]; cbn; ring.
  Qed.

  Lemma bchain_vector (l : list tens) : forall index e, bchain false l index e = vector_product l (e "s"%string) (e "f"%string) (e "i"%string).
  Proof. induction l as [|b l IH]; intros index e; cbn; [reflexivity | now rewrite IH]. Qed.
  Theorem product_vector corrs ns nr nf nc (args : list arg) : corrs <> 4%nat -> Forall (fits false ns nr nf nc) args ->
    brights args <> [] -> existsb has_rows args = true ->
    exists o, baseline_jones_multiply corrs args = Ok o /\ t_shape o = [ns; nr; nf; nc] /\
      forall s r f c, t_at o [s; r; f; c] = factor args s r f * vector_product (brights args) s f c.
  Proof.
    intros C F Nb R. apply Nat.eqb_neq in C.
    destruct (schemas_ok false corrs ns nr nf nc args C F 0) as (E & F2); [discriminate |].
    unfold baseline_jones_multiply, output_schema. rewrite E, C. cbn [bind].
    assert (FB : Forall (fun t : arg => is_bright t = true -> has_rows t = false) args) by (apply Forall_forall; intros t _; apply bright_rows).
    destruct (letters_bright false args 0 Nb) as (Ls & Lf & Li). pose proof (letters_rows false args 0 FB R) as Lr.
    destruct (einsum_ok (size false ns nr nf nc) _ ["s"; "r"; "f"; "i"]%string _ F2) as (o & summed & Eq & Sh & Nd & Sm & V).
    - repeat constructor; cbn; intuition discriminate.
    - intros l [<-|[<-|[<-|[<-|[]]]]]; auto.
    - exists o. split; [exact Eq |]. split; [exact Sh |]. intros s r f c. rewrite V.
      assert (summed = []) as ->.
      { destruct summed as [|(l, n) s']; auto. destruct (proj1 (Sm l n) (or_introl eq_refl)) as (I & O & _). exfalso. apply O.
        destruct (letters_upper false args 0 l I) as [->|[(-> & _)|[->|(_ & ->)]]]; cbn; tauto. }
      cbn [sum_over]. rewrite operands_eq, bchain_vector. reflexivity.
  Qed.
  Close Scope K_scope.

  (* ---------- refusals ---------- *)
  Lemma schemas_exn corrs (args : list arg) : forall index e, input_schemas corrs index args = Raise e -> e = ValueError.
  Proof.
    induction args as [|(name, a) r IH]; intros index e H; [discriminate |]. cbn [input_schemas] in H.
    destruct (term_schema name corrs index) as [(sc, i')|]; [|congruence]. destruct (negb _); [congruence |].
    destruct (input_schemas corrs i' r) as [(x, y)|e'] eqn:E; cbn [bind] in H; [discriminate |]. injection H as <-. exact (IH _ _ E).
  Qed.
  Lemma schemas_bad corrs (args : list arg) : (exists t, In t args /\ forall index, match term_schema (fst t) corrs index with
      Some (sc, _) => List.length sc <> List.length (t_shape (snd t)) | None => True end) ->
    forall index, input_schemas corrs index args = Raise ValueError.
  Proof.
    induction args as [|(name, a) r IH]; intros (t & I & H) index; [destruct I |]. cbn [input_schemas].
    destruct I as [<-|I].
    - specialize (H index). cbn [fst snd] in H. destruct (term_schema name corrs index) as [(sc, i')|]; [|reflexivity].
      apply Nat.eqb_neq in H. rewrite H. reflexivity.
    - destruct (term_schema name corrs index) as [(sc, i')|]; [|reflexivity]. destruct (negb _); [reflexivity |].
      rewrite IH; [reflexivity |]. exists t. auto.
  Qed.
  Lemma bright_cases (t : arg) : is_bright t = true -> fst t = "brightness"%string.
  Proof. intros E. now apply String.eqb_eq in E. Qed.
  Lemma schemas_many ns nr nf nc (args : list arg) : Forall (fits true ns nr nf nc) args -> forall index, index <= 3 ->
    4 <= index + List.length (brights args) -> input_schemas 4 index args = Raise ValueError.
  Proof.
    intros F. induction F as [|t r Ft F IH]; intros index Hi H; [cbn in H; lia |]. rewrite brights_cons in H.
    destruct t as (name, a). cbn [input_schemas]. destruct (is_bright (name, a)) eqn:B.
    - apply bright_cases in B. cbn in B. subst name. unfold fits in Ft. cbn in Ft. injection Ft as Ft. cbn [term_schema String.eqb Ascii.eqb Bool.eqb Nat.eqb].
      rewrite <- Ft. destruct (Nat.eq_dec index 3) as [->|N]; [reflexivity |].
      replace (List.length (["s"; "f"]%string ++ firstn 2 (skipn index corr_letters))) with 4 by (do 3 (destruct index as [|index]; [reflexivity |]); lia).
      cbn [List.length Nat.eqb negb]. rewrite IH; [reflexivity | lia | cbn in H; lia].
    - destruct (name_cases _ _ _ _ _ _ Ft) as [X|X]; [cbn in X; subst name; discriminate |].
      assert (Y : exists sc, term_schema name 4 index = Some (sc, index)).
      { unfold term_schema. cbn in X. destruct X as [-> | [-> | ->]]; eexists; reflexivity. }
      destruct Y as (sc & ->). destruct (negb _); [reflexivity |]. rewrite IH; [reflexivity | lia | exact H].
  Qed.
  Theorem product_full_refused ns nr nf nc (args : list arg) : Forall (fits true ns nr nf nc) args ->
    ~ ((1 <= List.length (brights args) <= 3)%nat /\ existsb has_rows args = true) -> baseline_jones_multiply 4 args = Raise ValueError.
  Proof.
    intros F H. destruct (Nat.le_gt_cases 4 (List.length (brights args))) as [M|M].
    - unfold baseline_jones_multiply. rewrite (schemas_many ns nr nf nc); auto; lia.
    - destruct (schemas_ok true 4 ns nr nf nc args eq_refl F 0) as (E & F2); [intros _; lia |].
      unfold baseline_jones_multiply. rewrite E. cbn [bind]. change (0 + List.length (brights args)) with (List.length (brights args)).
      destruct (Nat.eq_dec (List.length (brights args)) 0) as [Z|Z].
      + rewrite Z. cbn [output_schema Nat.eqb nth_error corr_letters bind]. apply (einsum_refused _ _ _ _ F2). left. intros N.
        inversion N as [|? ? _ N1]; subst. inversion N1 as [|? ? _ N2]; subst. inversion N2 as [|? ? _ N3]; subst. inversion N3 as [|? ? X N4]; subst.
        apply X. left. reflexivity.
      + assert (Eo : output_schema 4 (List.length (brights args)) = Ok ["s"; "r"; "f"; "i"; L (List.length (brights args))]%string)
          by (unfold output_schema; cbn [Nat.eqb]; destruct (List.length (brights args)) as [|[|[|[|m]]]]; try lia; reflexivity).
        rewrite Eo. cbn [bind]. apply (einsum_refused _ _ _ _ F2). right. exists "r"%string. split; [cbn; auto |]. intros I.
        destruct (letters_upper true args 0 _ I) as [X|[(_ & X)|[X|(_ & k & Hk & X)]]]; try discriminate.
        * apply H. split; [lia | exact X].
        * assert (k <= 3) by lia. do 4 (destruct k as [|k]; [discriminate |]). lia.
  Qed.
  Theorem product_vector_refused corrs ns nr nf nc (args : list arg) : corrs <> 4 -> Forall (fits false ns nr nf nc) args ->
    ~ (brights args <> [] /\ existsb has_rows args = true) -> baseline_jones_multiply corrs args = Raise ValueError.
  Proof.
    intros C F H. apply Nat.eqb_neq in C.
    destruct (schemas_ok false corrs ns nr nf nc args C F 0) as (E & F2); [discriminate |].
    unfold baseline_jones_multiply, output_schema. rewrite E, C. cbn [bind]. apply (einsum_refused _ _ _ _ F2). right.
    destruct (brights args) as [|b l] eqn:B.
    - exists "i"%string. split; [cbn; auto |]. intros I. destruct (letters_upper false args 0 _ I) as [X|[(X & _)|[X|(X & _)]]]; try discriminate. congruence.
    - exists "r"%string. split; [cbn; auto |]. intros I.
      destruct (letters_upper false args 0 _ I) as [X|[(_ & X)|[X|(_ & X)]]]; try discriminate. apply H. split; [discriminate | exact X].
  Qed.
  Theorem product_bad corrs (args : list arg) : (exists t, In t args /\ (~ In (fst t) ["brightness"; "phase_delay"; "gauss_shape"; "spi"]%string \/
      (In (fst t) ["phase_delay"; "gauss_shape"]%string /\ List.length (t_shape (snd t)) <> 3) \/ (fst t = "spi"%string /\ List.length (t_shape (snd t)) <> 1) \/
      (fst t = "brightness"%string /\ corrs <> 4 /\ List.length (t_shape (snd t)) <> 3))) -> baseline_jones_multiply corrs args = Raise ValueError.
  Proof.
    intros (t & I & H). unfold baseline_jones_multiply. rewrite schemas_bad; [reflexivity |]. exists t. split; [exact I |]. intros index.
    unfold term_schema. destruct H as [H|[(H & Hl')|[(H & Hl')|(H & C & Hl')]]].
    - cbn in H. destruct (String.eqb_spec (fst t) "brightness"); [exfalso; apply H; auto |]. destruct (String.eqb_spec (fst t) "phase_delay"); [exfalso; apply H; auto |].
      destruct (String.eqb_spec (fst t) "spi"); [exfalso; apply H; auto |]. destruct (String.eqb_spec (fst t) "gauss_shape"); [exfalso; apply H; auto |]. exact Logic.I.
    - destruct H as [<-|[<-|[]]]; cbn; intros X; apply Hl'; rewrite <- X; reflexivity.
    - rewrite H. cbn. intros X; apply Hl'; rewrite <- X; reflexivity.
    - rewrite H. apply Nat.eqb_neq in C. rewrite C. cbn. intros X; apply Hl'; rewrite <- X; reflexivity.
  Qed.
End E.
