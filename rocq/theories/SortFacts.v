(* Facts about the stable argsort and the unique-with-inverse loop. *)
From Coq Require Import Sorting.Sorted Sorting.Permutation.
From Verif Require Import Prelude PreludeFacts NumpyModel AvgModel AvgSpec.

Section Facts.
  Context {A : Type} (lt : A -> A -> bool) (O : order lt).

  Lemma ord_asym x y : lt x y = true -> lt y x = false.
  Proof.
    intros H. destruct (lt y x) eqn:E; [|reflexivity].
    pose proof (ord_irrefl _ O x). pose proof (ord_trans _ O x y x H E). congruence.
  Qed.

  (* strict order on positions: by key, then by index *)
  Definition before (key : arr A) (a b : nat) : Prop :=
    lt (key a) (key b) = true \/ (key a = key b /\ a < b).

  Lemma before_trans key a b c : before key a b -> before key b c -> before key a c.
  Proof.
    unfold before. intros [H1|[E1 H1]] [H2|[E2 H2]].
    - left. eapply ord_trans; eauto.
    - left. now rewrite <- E2.
    - left. now rewrite E1.
    - right. split; [congruence|lia].
  Qed.

  Lemma insert_perm key i l : Permutation (insert_idx lt key i l) (i :: l).
  Proof.
    induction l as [|j r IH]; simpl; [reflexivity|].
    destruct (lt (key j) (key i)); [|reflexivity].
    rewrite IH. apply perm_swap.
  Qed.

  Lemma insert_sorted key i l :
    StronglySorted (before key) l -> (forall j, In j l -> i < j) ->
    StronglySorted (before key) (insert_idx lt key i l).
  Proof.
    induction l as [|j r IH]; simpl; intros HS HL.
    - constructor; [constructor|constructor].
    - inversion HS as [|? ? HS' HF]; subst.
      destruct (lt (key j) (key i)) eqn:E.
      + constructor; [apply IH; auto|].
        apply Forall_forall. intros x Hx.
        apply (Permutation_in _ (insert_perm key i r)) in Hx.
        destruct Hx as [<-|Hx]; [left; exact E|].
        rewrite Forall_forall in HF. now apply HF.
      + constructor; [exact HS|].
        assert (Bij : before key i j).
        { destruct (lt (key i) (key j)) eqn:E2; [left; exact E2|].
          right. split; [now apply (ord_total _ O)|]. apply HL. now left. }
        constructor; [exact Bij|].
        apply Forall_forall. intros x Hx. rewrite Forall_forall in HF.
        eapply before_trans; [exact Bij|now apply HF].
  Qed.

  Lemma argsort_aux key s m :
    let l := fold_right (insert_idx lt key) [] (seq s m) in
    Permutation l (seq s m) /\ StronglySorted (before key) l.
  Proof.
    revert s. induction m as [|m IH]; intros s; simpl.
    - split; [reflexivity|constructor].
    - destruct (IH (S s)) as [P1 S1]. split.
      + rewrite insert_perm. now rewrite P1.
      + apply insert_sorted; [exact S1|]. intros j Hj.
        apply (Permutation_in _ P1) in Hj. apply in_seq in Hj. lia.
  Qed.

  Lemma argsort_perm n key : Permutation (argsort lt n key) (seq 0 n).
  Proof. apply argsort_aux. Qed.
  Lemma argsort_sorted n key : StronglySorted (before key) (argsort lt n key).
  Proof. apply argsort_aux. Qed.
  Lemma argsort_in n key i : In i (argsort lt n key) <-> i < n.
  Proof.
    split; intros H.
    - apply (Permutation_in _ (argsort_perm n key)) in H. apply in_seq in H. lia.
    - apply (Permutation_in _ (Permutation_sym (argsort_perm n key))). apply in_seq. lia.
  Qed.
  Lemma argsort_nodup n key : NoDup (argsort lt n key).
  Proof. eapply Permutation_NoDup; [apply Permutation_sym, argsort_perm|apply seq_NoDup]. Qed.
  Lemma argsort_length n key : length (argsort lt n key) = n.
  Proof. rewrite (Permutation_length (argsort_perm n key)). apply seq_length. Qed.

  (* ---------------- unique loop ---------------- *)
  Context (neq : A -> A -> bool) (neq_spec : forall x y, neq x y = true <-> x <> y).

  Definition occ (x : A) (l : list A) : nat :=
    length (filter (fun y => negb (neq y x)) l).

  Lemma neq_false x y : neq x y = false <-> x = y.
  Proof.
    destruct (neq x y) eqn:E.
    - split; [discriminate|]. intros ->. apply neq_spec in E. congruence.
    - split; [|reflexivity]. intros _.
      destruct (lt x y) eqn:L1.
      + exfalso. assert (x <> y). { intros ->. rewrite (ord_irrefl _ O) in L1. discriminate. }
        apply neq_spec in H. congruence.
      + destruct (lt y x) eqn:L2.
        * exfalso. assert (x <> y). { intros ->. congruence. }
          apply neq_spec in H. congruence.
        * now apply (ord_total _ O).
  Qed.

  Lemma occ_cons x y l : occ x (y :: l) = (if neq y x then 0 else 1) + occ x l.
  Proof. unfold occ. simpl. destruct (neq y x); reflexivity. Qed.

  Lemma occ_0 x l : ~ In x l -> occ x l = 0.
  Proof.
    intros H. induction l as [|y l IH]; [reflexivity|].
    rewrite occ_cons. destruct (neq y x) eqn:E.
    - simpl. apply IH. intros Hi. apply H. now right.
    - apply neq_false in E. subst. exfalso. apply H. now left.
  Qed.

  Lemma sorted_le key p l x : StronglySorted (before key) (p :: l) -> In x l ->
                      lt (key x) (key p) = false.
  Proof.
    intros HS Hx. inversion HS as [|? ? _ HF]; subst. rewrite Forall_forall in HF.
    destruct (HF x Hx) as [H|[E _]]; [now apply ord_asym|]. rewrite E. apply (ord_irrefl _ O).
  Qed.

  (* p0 is the position just before [rest] in the sorted permutation *)
  Lemma unique_loop_spec data rest : forall p0 i cs inv c0 mask inv' counts,
    StronglySorted (before data) (p0 :: rest) -> NoDup rest ->
    1 <= cs -> c0 <= i ->
    unique_loop neq data rest i (data p0) cs inv = (mask, inv', counts) ->
    let us := select mask (map data rest) in
    let ids := select mask rest in
    StronglySorted (fun x y => lt x y = true) (data p0 :: us)
    /\ (forall p, In p rest ->
          exists k, inv' p = cs - 1 + k /\ nth_error (data p0 :: us) k = Some (data p))
    /\ (forall p, ~ In p rest -> inv' p = inv p)
    /\ (forall x, In x us <-> In x (map data rest) /\ x <> data p0)
    /\ map data ids = us
    /\ (forall p, In p ids -> In p rest /\ forall q, In q rest -> data q = data p -> p <= q)
    /\ diff (c0 :: counts) = (i - c0 + occ (data p0) (map data rest))
                               :: map (fun u => occ u (map data rest)) us.
  Proof.
    induction rest as [|p rest IH]; intros p0 i cs inv c0 mask inv' counts HS ND Hcs Hc0 E.
    - simpl in E. injection E as <- <- <-. simpl.
      repeat split; try (intros; contradiction); try tauto.
      + constructor; constructor.
      + unfold occ. simpl. f_equal. lia.
    - cbn [unique_loop] in E.
      set (d := neq (data p) (data p0)) in *.
      set (cs' := if d then S cs else cs) in *.
      destruct (unique_loop neq data rest (S i) (data p) cs' (upd inv p (cs' - 1)))
        as [[mask1 inv1] counts1] eqn:E1.
      injection E as <- <- <-.
      inversion HS as [|? ? HS' HF]; subst.
      inversion ND as [|? ? Hni ND']; subst.
      assert (Hcs' : 1 <= cs') by (unfold cs'; destruct d; lia).
      pose (c1 := if d then i else c0).
      assert (Hc1 : c1 <= S i) by (unfold c1; destruct d; lia).
      specialize (IH p (S i) cs' (upd inv p (cs' - 1)) c1 mask1 inv1 counts1
                     HS' ND' Hcs' Hc1 E1).
      cbv zeta in IH.
      set (us1 := select mask1 (map data rest)) in *.
      set (ids1 := select mask1 rest) in *.
      destruct IH as (I1 & I2 & I3 & I4 & I5 & I6 & I7).
      assert (Hinvp : inv1 p = cs' - 1).
      { rewrite I3 by assumption. apply upd_eq. }
      assert (Hbp : before data p0 p) by (inversion HF; assumption).
      assert (Hmin : forall q, In q rest -> data q = data p -> p <= q).
      { intros q Hq Eq. inversion HS' as [|? ? _ HF']; subst.
        rewrite Forall_forall in HF'. destruct (HF' q Hq) as [Hl|[_ Hl]]; [|lia].
        rewrite Eq, (ord_irrefl _ O) in Hl. discriminate. }
      destruct d eqn:Ed; cbn [select map]; fold us1; fold ids1; unfold d in Ed.
      + (* a new unique value *)
        assert (Hne : data p <> data p0) by (apply neq_spec; exact Ed).
        assert (Hlt : lt (data p0) (data p) = true).
        { destruct Hbp as [H|[H _]]; [exact H|congruence]. }
        assert (Hnot : ~ In (data p0) (data p :: map data rest)).
        { intros [H|H]; [congruence|]. apply in_map_iff in H. destruct H as [q [Hq1 Hq2]].
          pose proof (sorted_le data p rest q HS' Hq2) as HH. congruence. }
        repeat split.
        * constructor; [exact I1|]. constructor; [exact Hlt|].
          inversion I1 as [|? ? _ HF1]; subst. rewrite Forall_forall in HF1 |- *.
          intros x Hx. eapply ord_trans; eauto.
        * intros q [<-|Hq].
          -- exists 1. split; [rewrite Hinvp; unfold cs'; lia|reflexivity].
          -- destruct (I2 q Hq) as [k [K1 K2]]. exists (S k).
             split; [rewrite K1; unfold cs'; lia|exact K2].
        * intros q Hq. rewrite I3 by (intros Hc; apply Hq; now right).
          apply upd_neq. intros ->. apply Hq. now left.
        * destruct H as [<-|H]; [now left|]. right. now apply I4.
        * intros ->. apply Hnot. destruct H as [H|H]; [now left|]. right. now apply I4.
        * intros [[<-|H] H2]; [now left|].
          destruct (neq x (data p)) eqn:Ex.
          -- right. apply I4. split; [exact H|]. now apply neq_spec.
          -- apply neq_false in Ex. subst. now left.
        * rewrite I5. reflexivity.
        * destruct H as [<-|H]; [now left|]. right. now apply (I6 p1).
        * destruct H as [<-|H]; intros q [<-|Hq] Eq; try lia.
          -- now apply Hmin.
          -- (* data p = data p1 with p1 among later uniques: impossible *)
             exfalso. assert (In (data p1) us1) by (rewrite <- I5; now apply in_map).
             apply I4 in H0. destruct H0 as [_ H0]. congruence.
          -- now apply (I6 p1 H).
        * change (diff (c0 :: i :: counts1)) with ((i - c0) :: diff (i :: counts1)).
          unfold c1 in I7. rewrite I7. f_equal.
          -- rewrite occ_0 by exact Hnot. lia.
          -- cbn [map]. f_equal.
             ++ rewrite occ_cons. replace (neq (data p) (data p)) with false
                  by (symmetry; now apply neq_false). lia.
             ++ apply map_ext_in. intros u Hu. rewrite occ_cons.
                apply I4 in Hu. destruct Hu as [_ Hu].
                replace (neq (data p) u) with true; [reflexivity|].
                symmetry. apply neq_spec. congruence.
      + (* same value as before *)
        apply neq_false in Ed. unfold cs', c1 in *. rewrite <- Ed.
        repeat split.
        * exact I1.
        * intros q [<-|Hq].
          -- exists 0. split; [lia|reflexivity].
          -- now apply I2.
        * intros q Hq. rewrite I3 by (intros Hc; apply Hq; now right).
          apply upd_neq. intros ->. apply Hq. now left.
        * right. now apply I4.
        * now apply I4.
        * intros [[<-|H] H2]; [congruence|]. apply I4. now split.
        * exact I5.
        * right. now apply (I6 p1).
        * intros q [<-|Hq] Eq.
          -- exfalso. assert (In (data p1) us1) by (rewrite <- I5; now apply in_map).
             apply I4 in H0. destruct H0 as [_ H0]. congruence.
          -- now apply (I6 p1 H).
        * rewrite I7. f_equal.
          -- rewrite occ_cons. replace (neq (data p) (data p)) with false
                  by (symmetry; now apply neq_false). lia.
          -- apply map_ext_in. intros u Hu. rewrite occ_cons.
             apply I4 in Hu. destruct Hu as [_ Hu].
             replace (neq (data p) u) with true; [reflexivity|].
             symmetry. apply neq_spec. congruence.
  Qed.

  Lemma occ_perm x l l' : Permutation l l' -> occ x l = occ x l'.
  Proof.
    intros P. induction P; rewrite ?occ_cons; try lia; reflexivity.
  Qed.

  Lemma unique_internal_spec n data us ids inv counts :
    unique_internal lt neq n data = (us, ids, inv, counts) ->
    StronglySorted (fun x y => lt x y = true) us
    /\ (forall x, In x us <-> exists i, i < n /\ data i = x)
    /\ (forall i, i < n -> nth_error us (inv i) = Some (data i))
    /\ map data ids = us
    /\ (forall p, In p ids -> p < n /\ forall q, q < n -> data q = data p -> p <= q)
    /\ counts = map (fun u => occ u (map data (seq 0 n))) us.
  Proof.
    unfold unique_internal. intros E.
    pose proof (argsort_perm n data) as P.
    pose proof (argsort_sorted n data) as HS.
    pose proof (argsort_nodup n data) as ND.
    pose proof (argsort_in n data) as HI.
    destruct (argsort lt n data) as [|p rest] eqn:EA.
    - injection E as <- <- <- <-. simpl.
      assert (n = 0). { destruct n; [reflexivity|]. exfalso. apply (HI 0). lia. }
      subst. repeat split; try (intros; lia); try contradiction; try constructor.
      intros [i [Hi _]]. lia.
    - destruct (unique_loop neq data rest 1 (data p) 1 (upd (fun _ => 0) p 0))
        as [[mask inv1] counts1] eqn:E1.
      injection E as <- <- <- <-.
      inversion ND as [|? ? Hni ND']; subst.
      pose proof (unique_loop_spec data rest p 1 1 (upd (fun _ => 0) p 0) 0 mask inv1 counts1
                    HS ND' (le_n 1) (Nat.le_0_l 1) E1) as Hsp.
      cbv zeta in Hsp.
      cbn [map select].
      set (us1 := select mask (map data rest)) in *.
      set (ids1 := select mask rest) in *.
      destruct Hsp as (I1 & I2 & I3 & I4 & I5 & I6 & I7).
      assert (Hmin : forall q, In q rest -> data q = data p -> p <= q).
      { intros q Hq Eq. inversion HS as [|? ? _ HF']; subst.
        rewrite Forall_forall in HF'. destruct (HF' q Hq) as [Hl|[_ Hl]]; [|lia].
        rewrite Eq, (ord_irrefl _ O) in Hl. discriminate. }
      repeat split.
      + exact I1.
      + intros [<-|H].
        * exists p. split; [|reflexivity]. apply HI. now left.
        * apply I4 in H. destruct H as [H _]. apply in_map_iff in H.
          destruct H as [q [Hq1 Hq2]]. exists q. split; [|exact Hq1]. apply HI. now right.
      + intros [i [Hi <-]]. apply HI in Hi. destruct Hi as [<-|Hi]; [now left|].
        destruct (neq (data i) (data p)) eqn:En.
        * right. apply I4. split; [now apply in_map|now apply neq_spec].
        * left. apply neq_false in En. congruence.
      + intros i Hi. apply HI in Hi. destruct Hi as [<-|Hi].
        * rewrite I3 by assumption. rewrite upd_eq. reflexivity.
        * destruct (I2 i Hi) as [k [K1 K2]]. rewrite K1. simpl. exact K2.
      + rewrite I5. reflexivity.
      + apply HI. destruct H as [<-|H]; [now left|]. right. now apply (I6 p0).
      + intros q Hq Eq. apply HI in Hq. destruct H as [<-|H], Hq as [<-|Hq]; try lia.
        * now apply Hmin.
        * exfalso. assert (In (data p0) us1) by (rewrite <- I5; now apply in_map).
          apply I4 in H0. destruct H0 as [_ H0]. congruence.
        * now apply (I6 p0 H).
      + change (diff (0 :: counts1) = occ (data p) (map data (seq 0 n)) :: map (fun u : A => occ u (map data (seq 0 n))) us1). rewrite I7.
        assert (HO : forall u, occ u (map data (seq 0 n)) = occ u (data p :: map data rest)).
        { intros u. apply occ_perm. apply Permutation_sym.
          change (data p :: map data rest) with (map data (p :: rest)).
          now apply Permutation_map. }
        cbn [map]. f_equal.
        * rewrite HO, occ_cons. replace (neq (data p) (data p)) with false
            by (symmetry; now apply neq_false). lia.
        * apply map_ext_in. intros u Hu. rewrite HO, occ_cons.
          apply I4 in Hu. destruct Hu as [_ Hu].
          replace (neq (data p) u) with true; [reflexivity|].
          symmetry. apply neq_spec. congruence.
  Qed.
End Facts.
