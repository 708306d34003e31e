(* register_assign_cycles and the warp transpose that uses it *)
From Coq Require Import String Permutation.
From Verif Require Import Prelude PreludeFacts UtilModel UtilSpec.
Open Scope nat_scope.

Lemma NoDup_app_remove_r {A} (l m : list A) : NoDup (l ++ m) -> NoDup l.
Proof.
  induction l as [|a l IH]; intros H; [constructor|]. inversion H; subst. constructor; auto.
  intros C. apply H2. apply in_or_app. now left.
Qed.
Lemma NoDup_app_remove_l {A} (l m : list A) : NoDup (l ++ m) -> NoDup m.
Proof. induction l as [|a l IH]; intros H; [exact H|]. inversion H; subst. auto. Qed.

Section Rot.
  Context (N : nat) (case : Z).
  Notation src := (rot_src N case).
  Definition G (k : nat) : nat * nat := (k, src k).

  Lemma rot_src_lt k : 0 < N -> src k < N.
  Proof.
    intros H. unfold rot_src.
    pose proof (Z.mod_pos_bound (Z.of_nat N - case + Z.of_nat k) (Z.of_nat N) ltac:(lia)). lia.
  Qed.
  Lemma rot_src_Z k : 0 < N -> Z.of_nat (src k) = ((Z.of_nat k - case) mod Z.of_nat N)%Z.
  Proof.
    intros H. unfold rot_src.
    pose proof (Z.mod_pos_bound (Z.of_nat N - case + Z.of_nat k) (Z.of_nat N) ltac:(lia)).
    rewrite Z2Nat.id by lia.
    replace (Z.of_nat N - case + Z.of_nat k)%Z with ((Z.of_nat k - case) + 1 * Z.of_nat N)%Z by lia.
    apply Z_mod_plus_full.
  Qed.
  Lemma rot_src_inj x y : x < N -> y < N -> src x = src y -> x = y.
  Proof.
    intros Hx Hy E. assert (HN : 0 < N) by lia.
    apply (f_equal Z.of_nat) in E. rewrite !rot_src_Z in E by exact HN.
    assert (D : ((Z.of_nat x - Z.of_nat y) mod Z.of_nat N = 0)%Z).
    { replace (Z.of_nat x - Z.of_nat y)%Z with ((Z.of_nat x - case) - (Z.of_nat y - case))%Z by lia.
      rewrite Zminus_mod, E, Z.sub_diag. reflexivity. }
    apply Z.mod_divide in D; [|lia]. destruct D as [q D].
    assert (q = 0)%Z by nia. subst q. lia.
  Qed.
  Lemma rot_src_surj y : y < N -> exists x, x < N /\ src x = y.
  Proof.
    intros Hy. exists (Z.to_nat ((Z.of_nat y + case) mod Z.of_nat N)).
    pose proof (Z.mod_pos_bound (Z.of_nat y + case) (Z.of_nat N) ltac:(lia)) as B.
    split; [lia|]. apply Nat2Z.inj. rewrite rot_src_Z by lia. rewrite Z2Nat.id by lia.
    rewrite Zminus_mod_idemp_l. replace (Z.of_nat y + case - case)%Z with (Z.of_nat y) by lia.
    apply Z.mod_small. lia.
  Qed.

  (* ---- dictionaries that are graphs of src ---- *)
  Lemma dget_G keys k : dget (map G keys) k = if in_dec Nat.eq_dec k keys then Some (src k) else None.
  Proof.
    induction keys as [|a l IH]; [reflexivity|]. cbn [map dget G].
    destruct (Nat.eqb_spec a k) as [->|Ne].
    - destruct (in_dec Nat.eq_dec k (k :: l)) as [_|n]; [reflexivity|]. exfalso; apply n; now left.
    - rewrite IH. destruct (in_dec Nat.eq_dec k l) as [i|n], (in_dec Nat.eq_dec k (a :: l)) as [i'|n']; auto.
      + exfalso. apply n'. now right.
      + exfalso. destruct i'; congruence.
  Qed.
  Lemma ddel_G keys k : exists keys', ddel (map G keys) k = map G keys' /\
    (In k keys -> Permutation keys (k :: keys')).
  Proof.
    induction keys as [|a l IH]; [exists []; simpl; tauto|]. cbn [map ddel G].
    destruct (Nat.eqb_spec a k) as [->|Ne].
    - exists l. auto.
    - destruct IH as [l' [E P]]. exists (a :: l'). rewrite E. split; [reflexivity|].
      intros [H|H]; [congruence|]. rewrite (P H). apply perm_swap.
  Qed.
  Lemma dset_G_fresh keys k v : ~ In k keys -> dset (map G keys) k v = map G keys ++ [(k, v)].
  Proof.
    induction keys as [|a l IH]; intros H; [reflexivity|]. cbn [map dset G app].
    destruct (Nat.eqb_spec a k) as [->|Ne]; [exfalso; apply H; now left|].
    rewrite IH; [reflexivity|]. intros C. apply H. now right.
  Qed.
  Lemma dset_G_same keys k : In k keys -> dset (map G keys) k (src k) = map G keys.
  Proof.
    induction keys as [|a l IH]; intros H; [destruct H|]. cbn [map dset G].
    destruct (Nat.eqb_spec a k) as [->|Ne]; [reflexivity|].
    rewrite IH; [reflexivity|]. destruct H; [congruence|exact H].
  Qed.

  Definition moved (k : nat) : bool := negb (Nat.eqb k (src k)).

  Lemma deps_init : fold_left (fun d p => if Nat.eqb (fst p) (snd p) then d else dset d (fst p) (snd p))
                        (combine (seq 0 N) (map src (seq 0 N))) [] = map G (filter moved (seq 0 N)).
  Proof.
    assert (X : forall l acc, NoDup (acc ++ l) ->
      fold_left (fun d p => if Nat.eqb (fst p) (snd p) then d else dset d (fst p) (snd p))
                (combine l (map src l)) (map G acc) = map G (acc ++ filter moved l)).
    { induction l as [|a l IH]; intros acc ND; [simpl; now rewrite app_nil_r|].
      cbn [map combine fold_left fst snd filter]. unfold moved at 1.
      destruct (Nat.eqb_spec a (src a)) as [E|Ne]; cbn [negb].
      - apply IH. apply NoDup_remove_1 in ND. exact ND.
      - rewrite dset_G_fresh.
        + change [(a, src a)] with (map G [a]). rewrite <- map_app, IH.
          * now rewrite <- app_assoc.
          * now rewrite <- app_assoc.
        + intros C. apply NoDup_remove_2 in ND. apply ND. apply in_or_app. now left. }
    exact (X (seq 0 N) [] (seq_NoDup N 0)).
  Qed.

  Lemma index_of_ok l d : forall i, In d l -> exists j, index_of l d i = Ok (i + j) /\ nth_error l j = Some d.
  Proof.
    induction l as [|a l IH]; intros i H; [destruct H|]. cbn [index_of].
    destruct (Nat.eqb_spec a d) as [->|Ne].
    - exists 0. rewrite Nat.add_0_r. auto.
    - destruct H as [H|H]; [congruence|]. destruct (IH (S i) H) as [j [E1 E2]].
      exists (S j). rewrite E1. split; [f_equal; lia|exact E2].
  Qed.

  Lemma deps_fix keys : (forall k, In k keys <-> k < N /\ moved k = true) ->
    forM N (fun di deps => do! si <- index_of (map src (seq 0 N)) di 0;
                           Ok (if Nat.ltb di si then dset deps si di else deps)) (map G keys)
    = Ok (map G keys).
  Proof.
    intros Hk.
    assert (X : forall m, m <= N -> forM m (fun di deps => do! si <- index_of (map src (seq 0 N)) di 0;
                           Ok (if Nat.ltb di si then dset deps si di else deps)) (map G keys)
                = Ok (map G keys)).
    { induction m as [|m IH]; intros Hm; [reflexivity|]. cbn [forM]. rewrite IH by lia. cbn [bind].
      destruct (rot_src_surj m ltac:(lia)) as [x [Hx Ex]].
      destruct (index_of_ok (map src (seq 0 N)) m 0) as [j [E1 E2]].
      { rewrite <- Ex. apply in_map. apply in_seq. lia. }
      rewrite E1. cbn [bind Nat.add]. destruct (Nat.ltb_spec m j) as [Lt|Ge]; [|reflexivity].
      assert (Hj : j < N).
      { assert (j < length (map src (seq 0 N))) by (apply nth_error_Some; congruence).
        rewrite map_length, seq_length in H. exact H. }
      rewrite nth_error_map in E2.
      destruct (nth_error (seq 0 N) j) as [j'|] eqn:E3; [|discriminate]. simpl in E2.
      assert (j' = j).
      { apply nth_error_nth with (d := 0) in E3. rewrite seq_nth in E3 by exact Hj. lia. }
      subst j'. injection E2 as E2. rewrite <- E2, dset_G_same; [reflexivity|].
      apply Hk. split; [exact Hj|]. unfold moved. apply negb_true_iff, Nat.eqb_neq. lia. }
    apply X. lia.
  Qed.

  (* ---- walks along src ---- *)
  Fixpoint walk (f : nat) (l : list nat) (k : nat) : Prop :=
    match l with
    | [] => f = k
    | x :: r => x = f /\ walk (src f) r k
    end.
  Lemma walk_app f l k l2 k2 : walk f l k -> walk k l2 k2 -> walk f (l ++ l2) k2.
  Proof. revert f. induction l as [|x l IH]; simpl; intros f; [intros ->; auto|]. intros [-> H] H2. auto. Qed.
  Lemma walk_map_src f l k : l <> [] -> walk f l k -> map src l = tl l ++ [k].
  Proof.
    revert f. induction l as [|x l IH]; intros f H W; [congruence|]. destruct W as [-> W]. cbn [map tl].
    destruct l as [|y l]; [simpl in *; congruence|].
    rewrite (IH (src f)); [|discriminate|exact W]. destruct W as [-> W]. reflexivity.
  Qed.
  Lemma NoDup_map_src l : (forall x, In x l -> x < N) -> NoDup l -> NoDup (map src l).
  Proof.
    intros B ND. induction ND as [|x l Hx ND IH]; [constructor|]. simpl. constructor.
    - intros C. apply in_map_iff in C. destruct C as [y [E Hy]].
      apply rot_src_inj in E; [subst; contradiction|apply B; now right|apply B; now left].
    - apply IH. intros y Hy. apply B. now right.
  Qed.

  Lemma follow_spec fuel : forall R f k path,
    length R < fuel -> path <> [] -> walk f path k ->
    NoDup (path ++ R) -> (forall x, In x (path ++ R) -> x < N) ->
    (forall x, In x (path ++ R) -> In (src x) (path ++ R)) ->
    exists l2 R2, follow fuel (map G R) f k = Ok (map G l2, map G R2) /\
      Permutation R (l2 ++ R2) /\ walk f (path ++ l2) f.
  Proof.
    induction fuel as [|fuel IH]; intros R f k path Hf Hp W ND B Cl; [lia|].
    cbn [follow]. rewrite dget_G.
    assert (Kin : In k (path ++ R)).
    { pose proof (walk_map_src f path k Hp W) as E.
      assert (In k (map src path)) by (rewrite E; apply in_or_app; right; now left).
      apply in_map_iff in H. destruct H as [x [<- Hx]]. apply Cl. apply in_or_app. now left. }
    destruct (in_dec Nat.eq_dec k R) as [Hk|Hk].
    - destruct (ddel_G R k) as [R' [E P]]. specialize (P Hk). rewrite E.
      assert (L : length R = S (length R')) by (apply Permutation_length in P; exact P).
      assert (PP : Permutation (path ++ R) ((path ++ [k]) ++ R')).
      { rewrite <- app_assoc. simpl. now apply Permutation_app_head. }
      destruct (IH R' f (src k) (path ++ [k])) as [l2 [R2 [F1 [F2 F3]]]].
      + lia.
      + destruct path; discriminate.
      + eapply walk_app; [exact W|]. simpl. auto.
      + eapply Permutation_NoDup; [exact PP|exact ND].
      + intros x Hx. apply B. eapply Permutation_in; [symmetry; exact PP|exact Hx].
      + intros x Hx. eapply Permutation_in; [exact PP|]. apply Cl.
        eapply Permutation_in; [symmetry; exact PP|exact Hx].
      + rewrite F1. cbn [bind fst snd]. exists (k :: l2), R2. split; [reflexivity|]. split.
        * rewrite P, F2. reflexivity.
        * rewrite <- app_assoc in F3. exact F3.
    - assert (Kp : In k path) by (apply in_app_or in Kin; tauto).
      assert (k = f).
      { pose proof (walk_map_src f path k Hp W) as E.
        assert (ND2 : NoDup (map src path)).
        { apply NoDup_map_src.
          - intros x Hx. apply B. apply in_or_app. now left.
          - apply NoDup_app_remove_r in ND. exact ND. }
        rewrite E in ND2. destruct path as [|p0 path]; [congruence|]. cbn [tl] in *.
        destruct W as [-> _]. destruct Kp as [->|Kp]; [reflexivity|].
        exfalso. apply NoDup_remove_2 in ND2. rewrite app_nil_r in ND2. contradiction. }
      subst k. rewrite Nat.eqb_refl. exists [], R. split; [reflexivity|]. split; [reflexivity|].
      rewrite app_nil_r. exact W.
  Qed.

  (* a cycle: the graph of src along a closed walk *)
  Definition good_cycle (c : list (nat * nat)) : Prop :=
    exists f l, c = map G l /\ l <> [] /\ walk f l f /\ NoDup l.

  Lemma cycles_loop_spec fuel : forall keys,
    length keys < fuel -> NoDup keys -> (forall x, In x keys -> x < N) ->
    (forall x, In x keys -> In (src x) keys) ->
    exists cs, cycles_loop fuel (map G keys) = Ok cs /\
      (forall c, In c cs -> good_cycle c) /\
      Permutation (concat cs) (map G keys).
  Proof.
    induction fuel as [|fuel IH]; intros keys Hf ND B Cl; [lia|].
    cbn [cycles_loop]. rewrite <- map_rev.
    destruct (rev keys) as [|k rk] eqn:Er.
    - exists []. cbn [map]. split; [reflexivity|]. split; [intros c []|].
      apply (f_equal (@rev nat)) in Er. rewrite rev_involutive in Er. subst keys. reflexivity.
    - cbn [map G]. rewrite <- map_rev.
      assert (Ek : keys = rev rk ++ [k]).
      { apply (f_equal (@rev nat)) in Er. rewrite rev_involutive in Er. exact Er. }
      set (R := rev rk) in *.
      assert (PP : Permutation keys ([k] ++ R)).
      { rewrite Ek. apply Permutation_app_comm. }
      assert (L : length keys = S (length R)) by (apply Permutation_length in PP; exact PP).
      destruct (follow_spec (S (length (map G keys))) R k (src k) [k]) as [l2 [R2 [F1 [F2 F3]]]].
      + rewrite map_length. lia.
      + discriminate.
      + simpl. auto.
      + eapply Permutation_NoDup; [exact PP|exact ND].
      + intros x Hx. apply B. eapply Permutation_in; [symmetry; exact PP|exact Hx].
      + intros x Hx. eapply Permutation_in; [exact PP|]. apply Cl.
        eapply Permutation_in; [symmetry; exact PP|exact Hx].
      + rewrite F1. cbn [bind fst snd].
        assert (P2 : Permutation keys (([k] ++ l2) ++ R2)).
        { rewrite PP, F2. now rewrite app_assoc. }
        assert (ND2 : NoDup (([k] ++ l2) ++ R2)) by (eapply Permutation_NoDup; eauto).
        assert (NDl : NoDup ([k] ++ l2)) by (apply NoDup_app_remove_r in ND2; exact ND2).
        pose proof (walk_map_src k ([k] ++ l2) k ltac:(discriminate) F3) as Ms.
        destruct (IH R2) as [cs [C1 [C2 C3]]].
        * apply Permutation_length in P2. rewrite app_length in P2. simpl in P2. lia.
        * apply NoDup_app_remove_l in ND2. exact ND2.
        * intros x Hx. apply B. eapply Permutation_in; [symmetry; exact P2|]. apply in_or_app. now right.
        * intros x Hx.
          assert (Xk : In x keys) by (eapply Permutation_in; [symmetry; exact P2|apply in_or_app; now right]).
          assert (Sx : In (src x) (([k] ++ l2) ++ R2)) by (eapply Permutation_in; [exact P2|auto]).
          apply in_app_or in Sx. destruct Sx as [Sx|Sx]; [|exact Sx]. exfalso.
          assert (In (src x) (map src ([k] ++ l2))).
          { rewrite Ms. cbn [app tl]. apply in_or_app.
            destruct Sx as [<-|Sx]; [right; now left|now left]. }
          apply in_map_iff in H. destruct H as [y [Ey Hy]].
          assert (Hyk : In y keys) by (eapply Permutation_in; [symmetry; exact P2|apply in_or_app; now left]).
          apply rot_src_inj in Ey; auto. subst y.
          clear -ND2 Hy Hx. apply in_split in Hy. destruct Hy as [a [b E]]. rewrite E in ND2.
          rewrite <- app_assoc in ND2. simpl in ND2. apply NoDup_remove_2 in ND2.
          apply ND2. apply in_or_app. right. apply in_or_app. now right.
        * rewrite C1. cbn [bind]. exists (((k, src k) :: map G l2) :: cs).
          split; [reflexivity|]. split.
          -- intros c [<-|Hc]; [|auto]. exists k, ([k] ++ l2). split; [reflexivity|].
             split; [discriminate|]. auto.
          -- cbn [concat]. rewrite C3. change ((k, src k) :: map G l2) with (map G ([k] ++ l2)).
             rewrite <- map_app. apply Permutation_map. now symmetry.
  Qed.

  Theorem register_cycles_ok : exists cs, register_assign_cycles N case = Ok cs /\
    (forall c, In c cs -> good_cycle c) /\
    Permutation (concat cs) (map G (filter moved (seq 0 N))).
  Proof.
    unfold register_assign_cycles. rewrite deps_init.
    set (keys := filter moved (seq 0 N)).
    assert (Hk : forall k, In k keys <-> k < N /\ moved k = true).
    { intros k. unfold keys. rewrite filter_In, in_seq. intuition lia. }
    rewrite deps_fix by exact Hk. cbn [bind].
    apply cycles_loop_spec.
    - rewrite map_length. lia.
    - apply NoDup_filter, seq_NoDup.
    - intros x Hx. apply Hk in Hx. tauto.
    - intros x Hx. apply Hk in Hx. destruct Hx as [Hx Mx]. apply Hk.
      split; [apply rot_src_lt; lia|]. unfold moved in *. apply negb_true_iff, Nat.eqb_neq in Mx.
      apply negb_true_iff, Nat.eqb_neq. intros E. apply Mx.
      apply rot_src_inj; [exact Hx|apply rot_src_lt; lia|exact E].
  Qed.

  (* ---- executing a cycle ---- *)
  Lemma run_suffix {A} (a : arr A) f : forall m k pre cur,
    walk k m f -> NoDup (pre ++ m) -> (pre = [] -> m <> [] -> k = f) -> (pre <> [] -> In f pre) ->
    (forall x, cur x = if in_dec Nat.eq_dec x pre then a (src x) else a x) ->
    forall x, fold_left (fun b p => upd b (fst p) (if Nat.eqb f (snd p) then a f else b (snd p)))
                        (map G m) cur x
              = if in_dec Nat.eq_dec x (pre ++ m) then a (src x) else a x.
  Proof.
    induction m as [|y m IH]; intros k pre cur W ND P1 P2 Hc x.
    - simpl. rewrite app_nil_r. apply Hc.
    - destruct W as [-> W]. cbn [map fold_left G fst snd].
      assert (Val : (if Nat.eqb f (src k) then a f else cur (src k)) = a (src k)).
      { destruct (Nat.eqb_spec f (src k)) as [E|Ne]; [now rewrite E|].
        destruct m as [|z m]; [simpl in W; congruence|]. destruct W as [-> W].
        rewrite Hc. destruct (in_dec Nat.eq_dec (src k) pre) as [i|]; [|reflexivity]. exfalso.
        clear -ND i. induction pre as [|p pre IH]; [destruct i|].
        simpl in ND. inversion ND; subst. destruct i as [->|i]; [|auto].
        apply H1. apply in_or_app. right. right. now left. }
      rewrite Val.
      assert (E : (pre ++ [k]) ++ m = pre ++ k :: m) by (rewrite <- app_assoc; reflexivity).
      rewrite <- E in *. apply (IH (src k)); auto.
      + intros C. destruct pre; discriminate.
      + intros _. apply in_or_app. destruct pre as [|p pre].
        * right. left. apply P1; [reflexivity|discriminate].
        * left. apply P2. discriminate.
      + intros z. unfold upd. destruct (Nat.eqb_spec z k) as [->|Nz].
        * destruct (in_dec Nat.eq_dec k (pre ++ [k])) as [_|n]; [reflexivity|].
          exfalso. apply n. apply in_or_app. right. now left.
        * rewrite Hc. destruct (in_dec Nat.eq_dec z pre) as [i0|n0], (in_dec Nat.eq_dec z (pre ++ [k])) as [i|n]; auto.
          -- exfalso. apply n. apply in_or_app. now left.
          -- exfalso. apply in_app_or in i. destruct i as [i|[i|[]]]; congruence.
  Qed.

  Lemma run_cycle_spec {A} c (a : arr A) : good_cycle c ->
    forall x, run_cycle c a x = if in_dec Nat.eq_dec x (map fst c) then a (src x) else a x.
  Proof.
    intros [f [l [-> [Hl [W ND]]]]] x.
    assert (E : map fst (map G l) = l) by (rewrite map_map; simpl; apply map_id). rewrite E.
    destruct l as [|y l]; [congruence|]. destruct W as [-> W].
    unfold run_cycle. cbn [map G]. change ((f, src f) :: map G l) with (map G (f :: l)).
    apply (run_suffix a f (f :: l) f [] a); auto.
    - simpl. auto.
    - congruence.
  Qed.

  Lemma run_cycles_spec {A} cs : (forall c, In c cs -> good_cycle c) -> NoDup (map fst (concat cs)) ->
    forall (a : arr A) x, run_cycles cs a x = if in_dec Nat.eq_dec x (map fst (concat cs)) then a (src x) else a x.
  Proof.
    induction cs as [|c cs IH]; intros Gc ND a x; [reflexivity|].
    unfold run_cycles in *. cbn [fold_left concat]. cbn [concat] in ND. rewrite map_app in *.
    rewrite IH; [|intros c' H; apply Gc; now right|apply NoDup_app_remove_l in ND; exact ND].
    assert (Gcc : good_cycle c) by (apply Gc; now left).
    rewrite !(run_cycle_spec c a Gcc).
    destruct (in_dec Nat.eq_dec x (map fst (concat cs))) as [i|n].
    - destruct (in_dec Nat.eq_dec x (map fst c ++ map fst (concat cs))) as [_|n'];
        [|exfalso; apply n'; apply in_or_app; now right].
      destruct (in_dec Nat.eq_dec (src x) (map fst c)) as [j|]; [|reflexivity]. exfalso.
      (* src x on cycle c, so x on c, contradicting NoDup *)
      assert (G2 : forall c', In c' cs -> good_cycle c') by (intros c' H; apply Gc; now right).
      apply in_map_iff in i. destruct i as [[x' v] [Ex Hx]]. simpl in Ex. subst x'.
      apply in_concat in Hx. destruct Hx as [c' [Hc' Hx]].
      destruct (G2 c' Hc') as [f [l [E [Hl [W NDl]]]]]. subst c'.
      assert (xl : In x l). { apply in_map_iff in Hx. destruct Hx as [y [Ey Hy]]. injection Ey as -> _. exact Hy. }
      assert (sl : In (src x) l).
      { assert (H : In (src x) (map src l)) by (now apply in_map). rewrite (walk_map_src f l f Hl W) in H.
        destruct l as [|z l]; [congruence|]. destruct W as [-> _]. cbn [tl] in H.
        apply in_app_or in H. destruct H as [H|[<-|[]]]; [now right|now left]. }
      assert (In (src x) (map fst (concat cs))).
      { apply in_map_iff. exists (G (src x)). split; [reflexivity|]. apply in_concat.
        exists (map G l). split; [exact Hc'|]. now apply in_map. }
      clear -ND j H. apply in_split in j. destruct j as [p [q E]]. rewrite E in ND.
      rewrite <- app_assoc in ND. simpl in ND. apply NoDup_remove_2 in ND. apply ND.
      apply in_or_app. right. apply in_or_app. now right.
    - destruct (in_dec Nat.eq_dec x (map fst c)) as [i0|n0], (in_dec Nat.eq_dec x (map fst c ++ map fst (concat cs))) as [i|n']; auto.
      + exfalso. apply n'. apply in_or_app. now left.
      + exfalso. apply in_app_or in i. tauto.
  Qed.

  Lemma good_is_cycle c : good_cycle c -> is_cycle c.
  Proof.
    intros [f [l [-> [Hl [W _]]]]]. destruct l as [|y l]; [congruence|]. destruct W as [-> W].
    cbn [map G is_cycle]. change ((f, src f) :: map G l) with (map G (f :: l)).
    assert (X : forall m k, walk k m f -> m <> [] -> chained (map G m) f).
    { induction m as [|z m IH]; intros k Wk Hm; [congruence|]. destruct Wk as [-> Wk].
      destruct m as [|w m]; [simpl in *; auto|]. pose proof Wk as Wk2. destruct Wk2 as [Ew _].
      specialize (IH (src k) Wk ltac:(discriminate)).
      change (chained ((k, src k) :: map G (w :: m)) f). cbn [map G] in *. split; [symmetry; exact Ew|].
      exact IH. }
    apply (X (f :: l) f); [simpl; auto|discriminate].
  Qed.
End Rot.

Theorem register_cycles_full N case : exists cs, register_assign_cycles N case = Ok cs /\
  (forall c, In c cs -> is_cycle c) /\
  NoDup (map fst (concat cs)) /\
  (forall d s, In (d, s) (concat cs) <-> d < N /\ d <> s /\ s < N /\
               Z.of_nat s = ((Z.of_nat d - case) mod Z.of_nat N)%Z) /\
  (forall A (a : arr A) x, x < N ->
     run_cycles cs a x = a (Z.to_nat ((Z.of_nat x - case) mod Z.of_nat N))) /\
  (forall A (a : arr A) x, N <= x -> run_cycles cs a x = a x).
Proof.
  destruct (register_cycles_ok N case) as [cs [E [Gc P]]]. exists cs. split; [exact E|].
  split. { intros c Hc. apply (good_is_cycle N case). auto. }
  assert (Pf : Permutation (map fst (concat cs)) (filter (moved N case) (seq 0 N))).
  { rewrite P, map_map. simpl. rewrite map_id. reflexivity. }
  assert (ND : NoDup (map fst (concat cs))).
  { eapply Permutation_NoDup; [symmetry; exact Pf|]. apply NoDup_filter, seq_NoDup. }
  split; [exact ND|]. split; [|split].
  - intros d s. split.
    + intros H. eapply Permutation_in in H; [|exact P]. apply in_map_iff in H.
      destruct H as [k [Ek Hk]]. injection Ek as -> <-. apply filter_In in Hk. destruct Hk as [H1 H2].
      apply in_seq in H1. unfold moved in H2. apply negb_true_iff, Nat.eqb_neq in H2.
      split; [lia|]. split; [exact H2|]. split; [apply rot_src_lt; lia|]. apply rot_src_Z. lia.
    + intros [H1 [H2 [H3 H4]]]. eapply Permutation_in; [symmetry; exact P|].
      assert (s = rot_src N case d) by (apply Nat2Z.inj; rewrite rot_src_Z by lia; exact H4). subst s.
      apply in_map_iff. exists d. split; [reflexivity|]. apply filter_In. rewrite in_seq.
      split; [lia|]. unfold moved. now apply negb_true_iff, Nat.eqb_neq.
  - intros A a x Hx. rewrite (run_cycles_spec N case cs Gc ND).
    rewrite <- rot_src_Z, Nat2Z.id by lia.
    destruct (in_dec Nat.eq_dec x (map fst (concat cs))) as [_|n]; [reflexivity|].
    f_equal. destruct (Nat.eq_dec x (rot_src N case x)) as [Ex|Ne]; [exact Ex|]. exfalso. apply n.
    eapply Permutation_in; [symmetry; exact Pf|]. apply filter_In. rewrite in_seq. split; [lia|].
    unfold moved. now apply negb_true_iff, Nat.eqb_neq.
  - intros A a x Hx. rewrite (run_cycles_spec N case cs Gc ND).
    destruct (in_dec Nat.eq_dec x (map fst (concat cs))) as [i|]; [|reflexivity]. exfalso.
    eapply Permutation_in in i; [|exact Pf]. apply filter_In in i. rewrite in_seq in i. lia.
Qed.

(* ---------- warp transpose ---------- *)
Lemma shuffle_spec {A} N addr0 next (v : arr2 A) t c : c < N ->
  shuffle N addr0 next v t c = v (addr0 (Nat.iter c next t)) c.
Proof.
  intros Hc. unfold shuffle.
  assert (X : forall k, k <= N ->
    let s := for_ k (fun c (s : arr2 A * (nat -> nat)) =>
                 let '(v, addr) := s in
                 ((fun t c' => if Nat.eqb c' c then v (addr t) c else v t c'),
                  (if Nat.eqb (S c) N then addr else fun t => addr (next t)))) (v, addr0) in
    (forall t c, fst s t c = if Nat.ltb c k then v (addr0 (Nat.iter c next t)) c else v t c) /\
    (k < N -> forall t, snd s t = addr0 (Nat.iter k next t))).
  { induction k as [|k IH]; intros Hk; [split; [reflexivity|intros; reflexivity]|].
    rewrite for_S. destruct (for_ k _ _) as [w addr] eqn:E.
    cbv zeta in *. cbn [fst snd] in *. destruct (IH ltac:(lia)) as [I1 I2]. split.
    - intros t' c'. destruct (Nat.eqb_spec c' k) as [->|Ne].
      + rewrite I1, I2 by lia. destruct (Nat.ltb_spec k k), (Nat.ltb_spec k (S k)); try lia. reflexivity.
      + rewrite I1. destruct (Nat.ltb_spec c' k), (Nat.ltb_spec c' (S k)); try lia; reflexivity.
    - intros Hk2 t'. destruct (Nat.eqb_spec (S k) N); [lia|]. rewrite I2 by lia.
      f_equal. clear. revert t'. induction k as [|k IHk]; intros t'; [reflexivity|].
      cbn [Nat.iter nat_rect]. f_equal. apply IHk. }
  destruct (X N (le_n _)) as [X1 _]. cbv zeta in X1. rewrite X1.
  destruct (Nat.ltb_spec c N); [reflexivity|lia].
Qed.

Lemma vertical_spec {A} N (v : arr2 A) : exists v', vertical N v = Ok v' /\
  forall t c, t < N -> c < N -> v' t c = v t (rot_src N (Z.of_nat t) c).
Proof.
  unfold vertical.
  assert (X : forall k, k <= N -> exists v', forM k (fun case v =>
            do! cs <- register_assign_cycles N (Z.of_nat case);
            Ok (fun t => if Nat.eqb t case then run_cycles cs (v t) else v t)) v = Ok v' /\
     forall t c, c < N -> v' t c = if Nat.ltb t k then v t (rot_src N (Z.of_nat t) c) else v t c).
  { induction k as [|k IH]; intros Hk; [exists v; split; reflexivity|].
    destruct (IH ltac:(lia)) as [w [E I]]. cbn [forM]. rewrite E. cbn [bind].
    destruct (register_cycles_full N (Z.of_nat k)) as [cs [Ec [_ [_ [_ [R _]]]]]].
    rewrite Ec. cbn [bind]. eexists. split; [reflexivity|]. intros t c Hc. cbn beta.
    destruct (Nat.eqb_spec t k) as [->|Ne].
    - rewrite R by exact Hc. rewrite <- rot_src_Z, Nat2Z.id by lia.
      rewrite I by (apply rot_src_lt; lia).
      destruct (Nat.ltb_spec k k), (Nat.ltb_spec k (S k)); try lia; reflexivity.
    - rewrite I by exact Hc. destruct (Nat.ltb_spec t k), (Nat.ltb_spec t (S k)); try lia; reflexivity. }
  destruct (X N (le_n _)) as [v' [E I]]. exists v'. split; [exact E|].
  intros t c Ht Hc. rewrite I by exact Hc. destruct (Nat.ltb_spec t N); [reflexivity|lia].
Qed.

Lemma iter_next_mod N d c t : 0 < N ->
  exists q, Z.of_nat (Nat.iter c (fun t => (t + d) mod N) t) = (Z.of_nat t + Z.of_nat c * Z.of_nat d + q * Z.of_nat N)%Z.
Proof.
  intros HN. induction c as [|c [q IH]]; [exists 0%Z; simpl; lia|].
  set (y := Nat.iter c _ t) in *. cbn [Nat.iter nat_rect].
  change (nat_rect _ t _ c) with y.
  pose proof (Nat.div_mod (y + d) N ltac:(lia)) as D.
  exists (q - Z.of_nat ((y + d) / N))%Z.
  assert (Z.of_nat (y + d) = Z.of_nat N * Z.of_nat ((y + d) / N) + Z.of_nat ((y + d) mod N))%Z by lia.
  nia.
Qed.

Lemma iter_next_lt N d c t : 0 < N -> t < N -> Nat.iter c (fun t => (t + d) mod N) t < N.
Proof. intros. destruct c; [exact H0|]. cbn [Nat.iter nat_rect]. apply Nat.mod_upper_bound. lia. Qed.

Theorem warp_transpose_spec {A} N (v : arr2 A) : exists v', warp_transpose N v = Ok v' /\
  forall t c, t < N -> c < N -> v' t c = v c t.
Proof.
  unfold warp_transpose. destruct (Nat.ltb_spec 1 N) as [H1|H1].
  2:{ exists v. split; [reflexivity|]. intros t c Ht Hc. assert (t = 0) by lia. assert (c = 0) by lia. now subst. }
  destruct (vertical_spec N (shuffle N (fun t => t) (fun t => (t + 1) mod N) v)) as [v2 [E2 V2]].
  rewrite E2. cbn [bind]. eexists. split; [reflexivity|]. intros t c Ht Hc.
  rewrite shuffle_spec by exact Hc.
  set (y := Nat.iter c (fun t => (t + (N - 1)) mod N) t).
  set (a := (N - y) mod N).
  assert (Hy : y < N) by (apply iter_next_lt; lia).
  assert (Ha : a < N) by (apply Nat.mod_upper_bound; lia).
  rewrite V2 by assumption. rewrite shuffle_spec by (apply rot_src_lt; lia).
  assert (Ya : exists q, Z.of_nat a = (Z.of_nat c - Z.of_nat t + q * Z.of_nat N)%Z).
  { destruct (iter_next_mod N (N - 1) c t ltac:(lia)) as [q Q]. fold y in Q.
    pose proof (Nat.div_mod (N - y) N ltac:(lia)) as D. fold a in D.
    exists (1 - Z.of_nat c - q - Z.of_nat ((N - y) / N))%Z.
    assert (Z.of_nat N - Z.of_nat y = Z.of_nat N * Z.of_nat ((N - y) / N) + Z.of_nat a)%Z by lia.
    replace (Z.of_nat (N - 1)) with (Z.of_nat N - 1)%Z in Q by lia. nia. }
  destruct Ya as [q Ya].
  assert (Es : rot_src N (Z.of_nat a) c = t).
  { apply Nat2Z.inj. rewrite rot_src_Z by lia.
    replace (Z.of_nat c - Z.of_nat a)%Z with (Z.of_nat t + (- q) * Z.of_nat N)%Z by lia.
    rewrite Z_mod_plus_full. apply Z.mod_small. lia. }
  rewrite Es. f_equal.
  destruct (iter_next_mod N 1 t a ltac:(lia)) as [q2 Q2].
  pose proof (iter_next_lt N 1 t a ltac:(lia) Ha) as B.
  set (z := Nat.iter t (fun t => (t + 1) mod N) a) in *.
  assert (Z.of_nat z = Z.of_nat c + (q + q2) * Z.of_nat N)%Z by lia.
  assert (q + q2 = 0)%Z by nia. lia.
Qed.
