From Coq Require Import String Permutation.
From Verif Require Import Prelude PreludeFacts CRing CohModel CohSpec.
Close Scope string_scope.
Open Scope nat_scope.
Open Scope list_scope.

Lemma bind_ok {A B} (m : res A) (f : A -> res B) y : bind m f = Ok y -> exists x, m = Ok x /\ f x = Ok y.
Proof. destruct m; cbn; intros H; [eauto | discriminate]. Qed.

Lemma id_type_spec z : id_type z = leaf_name (SInt z).
Proof.
  unfold leaf_name, casa_name. destruct (Z.leb_spec 0 z) as [H0|H0]; [destruct (Z.ltb_spec z 33) as [H1|H1]|]; cbn [andb].
  - assert (E : exists n, z = Z.of_nat n /\ n < 33) by (exists (Z.to_nat z); lia).
    destruct E as (n & -> & Hn). rewrite Nat2Z.id.
    do 33 (destruct n as [|n]; [vm_compute; reflexivity|]). lia.
  - unfold id_type. replace (filter _ _) with (@nil (nat * string)); [reflexivity|].
    symmetry. apply (proj2 (Forall_forall _ _)) || idtac.
    assert (F : forall kv, In kv (rev STOKES_ID_MAP) -> fst kv < 33).
    { apply Forall_forall. vm_compute. repeat constructor. }
    revert F. generalize (rev STOKES_ID_MAP). induction l as [|kv l IH]; intros F; cbn; auto.
    destruct (Z.eqb_spec (Z.of_nat (fst kv)) z) as [E|E].
    + specialize (F kv (or_introl eq_refl)). lia.
    + apply IH. intros k Hk. apply F. now right.
  - unfold id_type. replace (filter _ _) with (@nil (nat * string)); [reflexivity|]. symmetry.
    generalize (rev STOKES_ID_MAP). induction l as [|kv l IH]; cbn; auto.
    destruct (Z.eqb_spec (Z.of_nat (fst kv)) z) as [E|E]; [lia|auto].
Qed.

Fixpoint leaf_names (t : sch) : list string :=
  match t with
  | SSeq l => flat_map leaf_names l
  | _ => match leaf_name t with Some s => [s] | None => [] end
  end.
Definition is_seq (t : sch) : Prop := exists l, t = SSeq l.

Lemma has_spec r s : has r s = true <-> In s (map fst r).
Proof.
  unfold has. rewrite existsb_exists, in_map_iff. split.
  - intros (kv & Hi & E). apply String.eqb_eq in E. eauto.
  - intros (kv & E & Hi). exists kv. split; auto. subst. apply String.eqb_refl.
Qed.

(* one step of scan on an element that is not a sequence *)
Lemma scan_leaf i e l c d r : ~ is_seq e ->
  scan i (e :: l) c d r =
  match leaf_name e with
  | Some s => if has r s then Raise ValueError else scan (S i) l c d (r ++ [(s, c ++ [i])])
  | None => match e with SOther => Raise TypeError | _ => Raise ValueError end
  end.
Proof.
  intros Hn. destruct e as [s|z|es|]; cbn [scan]; auto.
  - rewrite id_type_spec. destruct (leaf_name (SInt z)); auto.
  - exfalso. apply Hn. now exists es.
Qed.
Lemma is_seq_dec e : is_seq e \/ ~ is_seq e.
Proof. destruct e; [right|right|left; now eexists|right]; intros (l & E); discriminate. Qed.
Lemma leaf_names_leaf e s : leaf_name e = Some s -> leaf_names e = [s].
Proof. destruct e; cbn [leaf_names]; intros H; try rewrite H; auto; discriminate. Qed.

Definition qnames (q : list item) : list string := flat_map (fun it => flat_map leaf_names (fst (fst it))) q.
Definition qsize (q : list item) : nat := list_sum (map (fun it => S (list_sum (map seqs (fst (fst it))))) q).

Lemma scan_spec l : forall i c d r q r', scan i l c d r = Ok (q, r') ->
  (forall it, In it q <-> exists k es, nth_error l k = Some (SSeq es) /\ it = (es, c ++ [i + k], S d)) /\
  (forall s x, In (s, x) r' <-> In (s, x) r \/ exists k e, nth_error l k = Some e /\ leaf_name e = Some s /\ x = c ++ [i + k]) /\
  (forall k e, nth_error l k = Some e -> is_seq e \/ exists s, leaf_name e = Some s) /\
  (NoDup (map fst r) -> NoDup (map fst r')) /\
  Permutation (map fst r ++ flat_map leaf_names l) (map fst r' ++ qnames q) /\
  qsize q = list_sum (map seqs l).
Proof.
  induction l as [|e l IH]; intros i c d r q r' H.
  - cbn in H. injection H as <- <-. repeat split; auto.
    + intros [].
    + intros (k & es & E & _). destruct k; discriminate.
    + intros [A|(k & e & E & _)]; auto. destruct k; discriminate.
    + intros k e E. destruct k; discriminate.
  - destruct (is_seq_dec e) as [(es & ->)|Hn].
    + cbn [scan] in H. apply bind_ok in H. destruct H as ([q0 r0] & H & E). injection E as <- <-.
      destruct (IH _ _ _ _ _ _ H) as (A & B & C & D & P & Z). repeat split.
      * intros [<-|Hi]. { exists 0, es. rewrite Nat.add_0_r. auto. }
        apply A in Hi. destruct Hi as (k & es' & E1 & E2). exists (S k), es'. split; auto.
        rewrite E2. now rewrite Nat.add_succ_r.
      * intros ([|k] & es' & E1 & ->). { cbn in E1. injection E1 as <-. left. now rewrite Nat.add_0_r. }
        right. apply A. exists k, es'. split; auto. now rewrite Nat.add_succ_r.
      * intros Hi. apply B in Hi. destruct Hi as [Hi|(k & e & E1 & E2 & ->)]; auto.
        right. exists (S k), e. rewrite Nat.add_succ_r. auto.
      * intros [Hi|([|k] & e & E1 & E2 & ->)]; apply B; auto.
        { cbn in E1. injection E1 as <-. discriminate. }
        right. exists k, e. rewrite Nat.add_succ_r. auto.
      * intros [|k] e E1; [injection E1 as <-; left; now eexists | eauto].
      * auto.
      * cbn [flat_map leaf_names qnames fst]. fold (qnames q0).
        rewrite (Permutation_app_swap_app (map fst r)), (Permutation_app_swap_app (map fst r0)).
        now apply Permutation_app_head.
      * change (qsize ((es, c ++ [i], S d) :: q0)) with (S (list_sum (map seqs es)) + qsize q0). rewrite Z. reflexivity.
    + rewrite (scan_leaf _ _ _ _ _ _ Hn) in H.
      destruct (leaf_name e) as [s|] eqn:El; [|destruct e; discriminate].
      destruct (has r s) eqn:Hh; [discriminate|].
      destruct (IH _ _ _ _ _ _ H) as (A & B & C & D & P & Z). repeat split.
      * intros Hi. apply A in Hi. destruct Hi as (k & es' & E1 & E2). exists (S k), es'. split; auto.
        rewrite E2. now rewrite Nat.add_succ_r.
      * intros ([|k] & es' & E1 & ->). { cbn in E1. injection E1 as ->. exfalso. apply Hn. now eexists. }
        apply A. exists k, es'. split; auto. now rewrite Nat.add_succ_r.
      * intros Hi. apply B in Hi. rewrite in_app_iff in Hi. destruct Hi as [[Hi|[E|[]]]|(k & e' & E1 & E2 & ->)]; auto.
        { injection E as <- <-. right. exists 0, e. rewrite Nat.add_0_r. auto. }
        right. exists (S k), e'. rewrite Nat.add_succ_r. auto.
      * intros [Hi|([|k] & e' & E1 & E2 & ->)]; apply B; rewrite in_app_iff; auto.
        { cbn in E1. injection E1 as <-. left. right. left. rewrite Nat.add_0_r. congruence. }
        right. exists k, e'. rewrite Nat.add_succ_r. auto.
      * intros [|k] e' E1; [injection E1 as <-; right; exists s; exact El | eauto].
      * intros N. apply D. rewrite map_app. cbn [map fst].
        apply (Permutation_NoDup (l := s :: map fst r)); [apply Permutation_cons_append|].
        constructor; auto. intros Hi. apply has_spec in Hi. congruence.
      * cbn [flat_map]. rewrite (leaf_names_leaf _ _ El). rewrite map_app in P. cbn [map fst] in P.
        rewrite app_assoc. exact P.
      * rewrite Z. destruct e; auto. exfalso. apply Hn. now eexists.
Qed.

Lemma scan_total l : forall i c d r,
  (forall e, In e l -> is_seq e \/ exists s, leaf_name e = Some s) ->
  NoDup (map fst r ++ flat_map leaf_names l) -> exists q r', scan i l c d r = Ok (q, r').
Proof.
  induction l as [|e l IH]; intros i c d r V N.
  - cbn. eauto.
  - destruct (is_seq_dec e) as [(es & ->)|Hn].
    + cbn [scan]. destruct (IH (S i) c d r) as (q & r' & E).
      * intros e He. apply V. now right.
      * cbn [flat_map] in N. rewrite (Permutation_app_comm (leaf_names _)), app_assoc in N.
        revert N. generalize (map fst r ++ flat_map leaf_names l). intros L0. generalize (leaf_names (SSeq es)).
        induction L0 as [|x L0 IL]; intros M N; constructor.
        -- intros Hi. inversion N; subst. apply H1. apply in_or_app. now left.
        -- inversion N; subst. eauto.
      * rewrite E. cbn. eauto.
    + rewrite (scan_leaf _ _ _ _ _ _ Hn). destruct (V e (or_introl eq_refl)) as [X|(s & Es)]; [contradiction|].
      rewrite Es. cbn [flat_map] in N. rewrite (leaf_names_leaf _ _ Es) in N.
      destruct (has r s) eqn:Hh.
      { apply has_spec in Hh. exfalso. cbn [app] in N. apply NoDup_remove_2 in N. apply N.
        apply in_or_app. now left. }
      apply IH.
      * intros e' He. apply V. now right.
      * rewrite map_app. cbn [map fst]. rewrite <- app_assoc. exact N.
Qed.

Lemma sub_app t a b : sub t (a ++ b) = match sub t a with Some e => sub e b | None => None end.
Proof.
  revert t. induction a as [|i a IH]; intros t; cbn; auto.
  destruct t; auto. destruct (nth_error l i); auto.
Qed.
Lemma sub_snoc t c l k : sub t c = Some (SSeq l) -> sub t (c ++ [k]) = nth_error l k.
Proof. intros H. rewrite sub_app, H. cbn. destruct (nth_error l k); auto. Qed.

(* ---------- the traversal ---------- *)
Section Bfs.
  Variable T : sch.
  Definition covered (q : list item) (idx : list nat) : Prop :=
    exists l c d p, In (l, c, d) q /\ idx = c ++ p.
  Record Inv (q : list item) (shape : list nat) (r : names) : Prop := {
    i_queue : forall l c d, In (l, c, d) q -> sub T c = Some (SSeq l) /\ d = List.length c /\ d <= List.length shape;
    i_seq : forall c l, sub T c = Some (SSeq l) ->
      nth_error shape (List.length c) = Some (List.length l) \/ covered q c;
    i_shape : forall k, k < List.length shape -> exists c l, List.length c = k /\ sub T c = Some (SSeq l) /\
      nth_error shape k = Some (List.length l);
    i_sound : forall s c, In (s, c) r -> at_ T c s;
    i_leaf : forall c e, sub T c = Some e -> ~ is_seq e -> (exists s, leaf_name e = Some s /\ In (s, c) r) \/ covered q c;
    i_nodup : NoDup (map fst r);
    i_names : Permutation (leaf_names T) (map fst r ++ qnames q)
  }.

  Lemma Inv_step l c d q shape r shape' more r' :
    Inv ((l, c, d) :: q) shape r ->
    infer_shape shape d (List.length l) = Ok shape' ->
    scan 0 l c d r = Ok (more, r') -> Inv (q ++ more) shape' r'.
  Proof.
    intros I Hs Hr. destruct (scan_spec _ _ _ _ _ _ _ Hr) as (A & B & C & D & P & Z).
    destruct (i_queue _ _ _ I l c d (or_introl eq_refl)) as (Sc & Ed & Ld).
    assert (SH : nth_error shape' d = Some (List.length l) /\ List.length shape <= List.length shape' /\
                 S d <= List.length shape' /\ (forall k x, nth_error shape k = Some x -> nth_error shape' k = Some x) /\
                 (forall k, k < List.length shape' -> k < List.length shape \/ k = d)).
    { revert Hs. unfold infer_shape. destruct (Nat.leb_spec (List.length shape) d) as [H|H].
      - intros E. injection E as <-. assert (E : List.length shape = d) by lia.
        rewrite app_length. cbn [List.length]. repeat split; try lia.
        + rewrite nth_error_app2 by lia. now rewrite E, Nat.sub_diag.
        + intros k x Hk. rewrite nth_error_app1; auto. apply nth_error_Some. congruence.
      - destruct (Nat.eqb_spec (nth d shape 0) (List.length l)) as [E|E]; cbn; [|discriminate].
        intros X. injection X as <-. repeat split; auto; try lia.
        rewrite <- E. now apply nth_error_nth'. }
    destruct SH as (S1 & S2 & S3 & S4 & S5).
    (* a position below the visited sequence is visited now or below one of the new items *)
    assert (CV : forall idx, covered ((l, c, d) :: q) idx ->
      idx = c \/ covered (q ++ more) idx \/ exists k e, idx = c ++ [k] /\ nth_error l k = Some e /\ ~ is_seq e \/ sub T idx = None).
    { intros idx (l0 & c0 & d0 & p & [E|Hi] & ->).
      - injection E as <- <- <-. destruct p as [|k p]. { left. apply app_nil_r. }
        right. destruct (nth_error l k) as [e|] eqn:Ek.
        + destruct (is_seq_dec e) as [(es & ->)|Hn].
          * left. exists es, (c ++ [k]), (S d), p. split.
            -- apply in_or_app. right. apply A. exists k, es. auto.
            -- now rewrite <- app_assoc.
          * right. destruct p as [|k2 p].
            -- exists k, e. left. auto.
            -- exists 0, e. right. rewrite sub_app, Sc. cbn. rewrite Ek. destruct e; auto. exfalso. apply Hn. now eexists.
        + right. exists 0, SOther. right. rewrite sub_app, Sc. cbn. now rewrite Ek.
      - right. left. exists l0, c0, d0, p. split; auto. apply in_or_app. now left. }
    constructor.
    - intros l0 c0 d0 Hi. apply in_app_or in Hi. destruct Hi as [Hi|Hi].
      + destruct (i_queue _ _ _ I l0 c0 d0 (or_intror Hi)) as (U & V & W). repeat split; auto. lia.
      + apply A in Hi. destruct Hi as (k & es & Ek & E). injection E as -> -> ->.
        repeat split.
        * now rewrite (sub_snoc _ _ _ _ Sc).
        * rewrite app_length. cbn. lia.
        * lia.
    - intros c0 l0 S0. destruct (i_seq _ _ _ I c0 l0 S0) as [H|H]; [left; auto|].
      destruct (CV _ H) as [->|[X|(k & e & [(-> & Ek & Hn)|X])]].
      + left. rewrite Sc in S0. injection S0 as <-. now rewrite <- Ed.
      + now right.
      + rewrite (sub_snoc _ _ _ _ Sc), Ek in S0. injection S0 as ->. exfalso. apply Hn. now eexists.
      + congruence.
    - intros k Hk. destruct (S5 k Hk) as [H|H].
      + destruct (i_shape _ _ _ I k H) as (c0 & l0 & X1 & X2 & X3). exists c0, l0. auto.
      + subst k. exists c, l. auto.
    - intros s c0 Hi. apply B in Hi. destruct Hi as [Hi|(k & e & Ek & El & ->)].
      + apply (i_sound _ _ _ I _ _ Hi).
      + exists e. split; auto. now rewrite (sub_snoc _ _ _ _ Sc).
    - intros c0 e0 S0 Hn. destruct (i_leaf _ _ _ I c0 e0 S0 Hn) as [(s & El & Hi)|H].
      + left. exists s. split; auto. apply B. auto.
      + destruct (CV _ H) as [->|[X|(k & e & [(-> & Ek & _)|X])]].
        * rewrite Sc in S0. injection S0 as <-. exfalso. apply Hn. now eexists.
        * now right.
        * left. rewrite (sub_snoc _ _ _ _ Sc), Ek in S0. injection S0 as ->.
          destruct (C _ _ Ek) as [X|(s & Es)]; [contradiction|]. exists s. split; auto.
          apply B. right. exists k, e0. auto.
        * congruence.
    - apply D, (i_nodup _ _ _ I).
    - rewrite (i_names _ _ _ I). unfold qnames at 1. cbn [flat_map fst]. fold (qnames q).
      unfold qnames at 2. rewrite flat_map_app. fold (qnames q). fold (qnames more).
      rewrite app_assoc, P, <- !app_assoc. apply Permutation_app_head, Permutation_app_comm.
  Qed.

  Lemma qsize_app a b : qsize (a ++ b) = qsize a + qsize b.
  Proof. unfold qsize. now rewrite map_app, list_sum_app. Qed.

  Lemma bfs_sound fuel : forall q shape r r' shape', qsize q <= fuel -> Inv q shape r ->
    bfs fuel q shape r = Ok (r', shape') -> Inv [] shape' r'.
  Proof.
    induction fuel as [|fuel IH]; intros q shape r r' shape' Hf I H.
    - cbn in H. injection H as <- <-. destruct q as [|[[a b] c] q]; auto. cbn in Hf. lia.
    - cbn [bfs] in H. destruct q as [|[[l c] d] q]. { injection H as <- <-. exact I. }
      apply bind_ok in H. destruct H as (sh & Hs & H). apply bind_ok in H. destruct H as ([more r1] & Hr & H).
      refine (IH _ _ _ _ _ _ (Inv_step _ _ _ _ _ _ _ _ _ I Hs Hr) H).
      destruct (scan_spec _ _ _ _ _ _ _ Hr) as (_ & _ & _ & _ & _ & Z).
      rewrite qsize_app, Z. change (S (list_sum (map seqs l)) + qsize q <= S fuel) in Hf. lia.
  Qed.

  Lemma bfs_total fuel : forall q shape r, qsize q <= fuel -> Inv q shape r ->
    named T -> NoDup (leaf_names T) -> consistent T -> exists r' shape', bfs fuel q shape r = Ok (r', shape').
  Proof.
    induction fuel as [|fuel IH]; intros q shape r Hf I V N Hc.
    - cbn. eauto.
    - cbn [bfs]. destruct q as [|[[l c] d] q]; eauto.
      destruct (i_queue _ _ _ I l c d (or_introl eq_refl)) as (Sc & Ed & Ld).
      assert (E : exists sh, infer_shape shape d (List.length l) = Ok sh).
      { unfold infer_shape. destruct (Nat.leb_spec (List.length shape) d) as [H|H]; [eauto|].
        destruct (i_shape _ _ _ I d H) as (c0 & l0 & E0 & S0 & X).
        apply nth_error_nth with (d := 0) in X. rewrite X.
        rewrite (Hc c0 c l0 l S0 Sc) by congruence. rewrite Nat.eqb_refl. cbn. eauto. }
      destruct E as (sh & Es). rewrite Es. cbn [bind].
      destruct (scan_total l 0 c d r) as (more & r1 & Er).
      { intros e He. apply In_nth_error in He. destruct He as (k & Ek). apply (V (c ++ [k])).
        now rewrite (sub_snoc _ _ _ _ Sc). }
      { assert (N' := Permutation_NoDup (i_names _ _ _ I) N). unfold qnames in N'. cbn [flat_map fst] in N'.
        rewrite app_assoc in N'. revert N'. generalize (map fst r ++ flat_map leaf_names l).
        induction l0 as [|x l0 IL]; intros N'; constructor; inversion N'; subst; auto.
        intros Hi. apply H1. apply in_or_app. now left. }
      rewrite Er. cbn [bind].
      apply IH; auto.
      + destruct (scan_spec _ _ _ _ _ _ _ Er) as (_ & _ & _ & _ & _ & Z).
        rewrite qsize_app, Z. change (S (list_sum (map seqs l)) + qsize q <= S fuel) in Hf. lia.
      + exact (Inv_step _ _ _ _ _ _ _ _ _ I Es Er).
  Qed.

  (* the start of the traversal *)
  Lemma Inv_start l : T = SSeq l -> Inv [(l, [], 0)] [] [].
  Proof.
    intros E0. constructor.
    - intros l0 c d [E|[]]. injection E as <- <- <-. split; [now rewrite E0|]. split; [reflexivity | cbn; lia].
    - intros c l0 _. right. exists l, [], 0, c. split; auto. now left.
    - intros k Hk. cbn in Hk. lia.
    - intros s c [].
    - intros c e _ _. right. exists l, [], 0, c. split; auto. now left.
    - constructor.
    - rewrite E0. cbn. now rewrite app_nil_r.
  Qed.
End Bfs.

Lemma boxed_as_list t : boxed t = SSeq (as_list t).
Proof. now destruct t. Qed.

Lemma seqs_in e l : In e l -> S (seqs e) <= seqs (SSeq l).
Proof.
  intros H. change (seqs (SSeq l)) with (S (list_sum (map seqs l))). apply le_n_S.
  induction l as [|x l IH]; [destruct H|].
  change (list_sum (map seqs (x :: l))) with (seqs x + list_sum (map seqs l)).
  destruct H as [->|H]; [lia|]. specialize (IH H). lia.
Qed.

(* distinct names, stated with positions or as a list *)
Lemma in_leaf_names t : forall s, In s (leaf_names t) <-> exists idx, at_ t idx s.
Proof.
  assert (A : forall n t, seqs t <= n -> forall s, In s (leaf_names t) -> exists idx, at_ t idx s).
  { clear t. induction n as [|n IH]; intros t Hn s Hi.
    - destruct t; cbn in Hn; try lia; exists []; (eexists; split; [reflexivity|]);
        cbn [leaf_names] in Hi; revert Hi; destruct (leaf_name _); intros []; subst; auto; contradiction.
    - destruct t; try (exists []; (eexists; split; [reflexivity|]);
        cbn [leaf_names] in Hi; revert Hi; destruct (leaf_name _); intros []; subst; auto; contradiction).
      cbn [leaf_names] in Hi. apply in_flat_map in Hi. destruct Hi as (e & He & Hi).
      destruct (IH e) with (s := s) as (idx & e' & Se & El); auto.
      { apply seqs_in in He. lia. }
      apply In_nth_error in He. destruct He as (k & Ek). exists (k :: idx), e'. split; auto. cbn. now rewrite Ek. }
  intros s. split. { intros H. eapply A; [reflexivity | exact H]. }
  intros (idx & e & Se & El). revert t Se. induction idx as [|k idx IH]; intros t Se.
  - injection Se as ->. rewrite (leaf_names_leaf _ _ El). now left.
  - cbn in Se. destruct t as [| |l|]; try discriminate. destruct (nth_error l k) as [x|] eqn:Ek; [|discriminate].
    cbn [leaf_names]. apply in_flat_map. exists x. split; [eapply nth_error_In; eauto | auto].
Qed.

Lemma NoDup_app_intro {A} (a b : list A) : NoDup a -> NoDup b -> (forall x, In x a -> In x b -> False) -> NoDup (a ++ b).
Proof.
  induction a as [|x a IH]; intros Na Nb D; cbn; auto. inversion Na; subst. constructor.
  - rewrite in_app_iff. intros [H|H]; auto. apply (D x); auto. now left.
  - apply IH; auto. intros y Hy. apply D. now right.
Qed.

Lemma distinct_nodup t : distinct t -> NoDup (leaf_names t).
Proof.
  revert t. assert (A : forall n t, seqs t <= n -> distinct t -> NoDup (leaf_names t)).
  { induction n as [|n IH]; intros t Hn D.
    - destruct t; cbn in Hn; try lia; cbn [leaf_names]; destruct (leaf_name _); repeat constructor; auto.
    - destruct t; try (cbn [leaf_names]; destruct (leaf_name _); repeat constructor; auto).
      cbn [leaf_names].
      assert (B : forall l0 j, (forall k, nth_error l0 k = nth_error l (j + k)) -> NoDup (flat_map leaf_names l0)).
      { induction l0 as [|x l0 IL]; intros j Hj; cbn; [constructor|].
        assert (Ex := Hj 0). cbn in Ex. rewrite Nat.add_0_r in Ex.
        apply NoDup_app_intro.
        - apply IH.
          + symmetry in Ex. apply nth_error_In, seqs_in in Ex. lia.
          + intros a b s (ea & Sa & La) (eb & Sb & Lb).
            assert (E : j :: a = j :: b); [|now injection E].
            apply (D _ _ s); [exists ea | exists eb]; cbn; rewrite <- Ex; auto.
        - apply (IL (S j)). intros k. specialize (Hj (S k)). cbn in Hj. rewrite Hj. now rewrite Nat.add_succ_r.
        - intros s Ha Hb. apply in_leaf_names in Ha. destruct Ha as (a & ea & Sa & La).
          apply in_flat_map in Hb. destruct Hb as (y & Hy & Hb). apply in_leaf_names in Hb.
          destruct Hb as (b & eb & Sb & Lb). apply In_nth_error in Hy. destruct Hy as (k & Ek).
          assert (Ey := Hj (S k)). cbn [nth_error] in Ey. rewrite Ek in Ey.
          assert (E : j :: a = (j + S k) :: b); [|injection E; lia].
          apply (D _ _ s); [exists ea | exists eb]; cbn; [rewrite <- Ex | rewrite <- Ey]; auto. }
      apply (B l 0). auto. }
  intros t. now apply (A (seqs t)).
Qed.

Lemma not_covered idx : ~ covered [] idx.
Proof. intros (l & c & d & p & [] & _). Qed.

Theorem element_indices_ok t r sh : element_indices_and_shape t = Ok (r, sh) ->
  described (boxed t) r sh /\ named (boxed t) /\ distinct (boxed t) /\ consistent (boxed t).
Proof.
  intros H. unfold element_indices_and_shape in H. rewrite boxed_as_list. set (T := SSeq (as_list t)) in *.
  assert (I : Inv T [] sh r).
  { eapply bfs_sound; [| | exact H].
    - unfold T. change (S (list_sum (map seqs (as_list t))) + 0 <= S (S (list_sum (map seqs (as_list t))))). lia.
    - now apply Inv_start. }
  assert (G : forall s idx, In (s, idx) r <-> at_ T idx s).
  { intros s idx. split; [apply (i_sound _ _ _ _ I)|]. intros (e & Se & El).
    destruct (i_leaf _ _ _ _ I _ _ Se) as [(s' & E' & Hi)|Hc].
    - intros (l & ->). discriminate.
    - congruence.
    - now apply not_covered in Hc. }
  assert (Q : forall idx l, sub T idx = Some (SSeq l) -> nth_error sh (List.length idx) = Some (List.length l)).
  { intros idx l Sl. destruct (i_seq _ _ _ _ I _ _ Sl) as [X|X]; auto. now apply not_covered in X. }
  repeat split.
  - apply G.
  - apply G.
  - apply (i_nodup _ _ _ _ I).
  - apply Q.
  - intros k Hk. destruct (i_shape _ _ _ _ I k Hk) as (c & l & X & Y & _). eauto.
  - intros idx e Se. destruct (is_seq_dec e) as [X|X]; [now left|right].
    destruct (i_leaf _ _ _ _ I _ _ Se X) as [(s & E & _)|Hc]; eauto. now apply not_covered in Hc.
  - intros i j s Hi Hj. apply G in Hi. apply G in Hj. assert (N := i_nodup _ _ _ _ I). clear - Hi Hj N.
    induction r as [|[k x] r IH]; [destruct Hi|]. cbn in N. inversion N; subst.
    destruct Hi as [E|Hi], Hj as [E'|Hj]; auto.
    + congruence.
    + injection E as -> ->. exfalso. apply H1. now apply (in_map fst) in Hj.
    + injection E' as -> ->. exfalso. apply H1. now apply (in_map fst) in Hi.
  - intros i j l m Sl Sm E. apply Q in Sl. apply Q in Sm. rewrite E in Sl. congruence.
Qed.

Theorem element_indices_total t : named (boxed t) -> distinct (boxed t) -> consistent (boxed t) ->
  exists r sh, element_indices_and_shape t = Ok (r, sh).
Proof.
  rewrite boxed_as_list. intros V D C. unfold element_indices_and_shape. set (T := SSeq (as_list t)) in *.
  apply (bfs_total T); auto.
  - unfold T. change (S (list_sum (map seqs (as_list t))) + 0 <= S (S (list_sum (map seqs (as_list t))))). lia.
  - now apply Inv_start.
  - now apply distinct_nodup.
Qed.
