From Coq Require Import String.
From Verif Require Import Prelude PreludeFacts UtilModel UtilSpec.
Open Scope nat_scope.

(* ---------- aggregate_chunks ---------- *)
Lemma map2_map {A B C D} (f : B -> C -> D) (g : A -> B) (h : A -> C) l :
  map2 f (map g l) (map h l) = map (fun x => f (g x) (h x)) l.
Proof. induction l; simpl; congruence. Qed.

Definition slice {A} (i n : nat) (l : list A) := firstn n (skipn i l).

Lemma skipn_add {A} i j : forall l : list A, skipn i (skipn j l) = skipn (j + i) l.
Proof. induction j as [|j IH]; intros l; [reflexivity|]. destruct l; simpl; [apply skipn_nil|apply IH]. Qed.
Lemma cut_snoc {A} gs m : forall l : list A, cut (gs ++ [m]) l = cut gs l ++ [slice (list_sum gs) m l].
Proof.
  induction gs as [|g r IH]; intros l; [reflexivity|]. simpl. rewrite IH. f_equal. f_equal. f_equal.
  unfold slice. now rewrite skipn_add.
Qed.
Lemma cut_length {A} gs : forall l : list A, length (cut gs l) = length gs.
Proof. induction gs; intros; simpl; auto. Qed.
Lemma list_sum_snoc l a : list_sum (l ++ [a]) = list_sum l + a.
Proof. rewrite list_sum_app. simpl. lia. Qed.
Lemma skipn_nth {A} (d : A) i : forall l, i < length l -> skipn i l = nth i l d :: skipn (S i) l.
Proof. induction i as [|i IH]; intros [|a l] H; simpl in *; try lia; auto. rewrite IH by lia. reflexivity. Qed.
Lemma slice_S (l : list nat) i m : i + m < length l -> slice i (S m) l = slice i m l ++ [nth (i + m) l 0].
Proof.
  revert i l. induction m as [|m IH]; intros i l H; unfold slice.
  - rewrite (skipn_nth 0) by lia. simpl. now rewrite Nat.add_0_r.
  - rewrite (skipn_nth 0) by lia. unfold slice in IH. specialize (IH (S i) l ltac:(lia)).
    cbn [firstn]. cbn [firstn] in IH. rewrite IH. simpl. f_equal. f_equal. f_equal. f_equal. lia.
Qed.
Lemma slice_length {A} i m (l : list A) : i + m <= length l -> length (slice i m l) = m.
Proof. intros. unfold slice. rewrite firstn_length, skipn_length. lia. Qed.
Lemma slice_hd (l : list nat) i m : 0 < m -> i + m <= length l -> hd 0 (slice i m l) = nth i l 0.
Proof. intros. unfold slice. rewrite (skipn_nth 0) by lia. destruct m; [lia|]. reflexivity. Qed.

Lemma existsb_map2 chunks : forall (g : list nat -> nat) maxs, length chunks = length maxs ->
  (existsb (fun b => b) (map2 (fun x m => Nat.ltb m x) (map g chunks) maxs) = true <->
   exists d c mx, nth_error chunks d = Some c /\ nth_error maxs d = Some mx /\ mx < g c).
Proof.
  induction chunks as [|c cs IH]; intros g maxs Hl; destruct maxs as [|m ms]; simpl in Hl; try lia.
  - simpl. split; [discriminate|]. intros [d [c [mx [H _]]]]. destruct d; discriminate.
  - simpl. rewrite orb_true_iff, (IH g ms ltac:(lia)), Nat.ltb_lt. split.
    + intros [H|[d [c' [mx H]]]]; [exists 0, c, m; auto|exists (S d), c', mx; auto].
    + intros [[|d] [c' [mx [H1 [H2 H3]]]]]; simpl in *.
      * left. injection H1 as <-. injection H2 as <-. exact H3.
      * right. exists d, c', mx. auto.
Qed.

Section Agg.
  Context (chunks : list (list nat)) (maxs : list nat) (n : nat).
  Context (Hl : length chunks = length maxs) (Hn : forall c, In c chunks -> length c = n).


  Lemma in_chunks d c : nth_error chunks d = Some c -> length c = n.
  Proof. intros H. apply Hn. eapply nth_error_In; eauto. Qed.

  (* groups so far, the last one (of m chunks) still open *)
  Definition agg_inv (k : nat) (s : agg_state) : Prop :=
    exists gs m,
      (k = 0 /\ gs = [] /\ m = 0 \/ 0 < m /\ aggregation chunks maxs k (gs ++ [m])) /\
      fst s = map (fun c => map list_sum (cut gs c)) chunks /\
      snd s = map (fun c => list_sum (slice (list_sum gs) m c)) chunks.

  Lemma map_const {A B C} (x : C) : forall (l : list A) (m : list B), length l = length m ->
    map (fun _ => x) l = map (fun _ => x) m.
  Proof. induction l; intros [|b m] H; simpl in *; try lia; auto. f_equal. apply IHl. lia. Qed.

  Lemma agg_loop_inv k : k <= n -> agg_inv k
    (for_ k (agg_step chunks maxs) (map (fun _ => []) maxs, map (fun _ => 0) maxs)).
  Proof.
    induction k as [|k IH]; intros Hk.
    - exists [], 0. split; [auto|]. cbn [for_ fst snd]. split; apply map_const; auto.
    - rewrite for_S. destruct (IH ltac:(lia)) as [gs [m [I [E1 E2]]]]. clear IH.
      set (s := for_ k _ _) in *. destruct s as [agg counts]. cbn [fst snd] in *.
      assert (Sk : list_sum gs + m = k).
      { destruct I as [[-> [-> ->]]|[_ A]]; [reflexivity|]. rewrite <- (ag_cover _ _ _ _ A). rewrite list_sum_snoc. reflexivity. }
      unfold agg_step. rewrite E2, map2_map.
      set (g := fun c : list nat => list_sum (slice (list_sum gs) m c) + nth k c 0).
      destruct (existsb _ _) eqn:X.
      + apply existsb_map2 in X; [|exact Hl]. destruct X as [d [c [mx [D1 [D2 D3]]]]].
        exists (gs ++ [m]), 1. split; [right; split; [lia|]|].
        * constructor.
          -- rewrite !list_sum_snoc. lia.
          -- intros d' c' mx' s' H1 H2 H3. rewrite cut_snoc in H3. apply in_app_or in H3.
             destruct H3 as [H3|[<-|[]]].
             ++ destruct I as [[_ [-> ->]]|[_ A]].
                ** simpl in H3. destruct H3 as [<-|[]]. left. simpl. lia.
                ** exact (ag_fit _ _ _ _ A d' c' mx' s' H1 H2 H3).
             ++ right. apply slice_length. rewrite list_sum_snoc, (in_chunks d' c') by exact H1. lia.
          -- intros k' Hk'. rewrite app_length in Hk'. cbn [length] in Hk'.
             destruct (Nat.eq_dec (S k') (length (gs ++ [m]))) as [Ek|Nk].
             ++ exists d, c, mx, (slice (list_sum gs) m c), (slice (list_sum (gs ++ [m])) 1 c).
                split; [exact D1|]. split; [exact D2|].
                rewrite !cut_snoc. rewrite app_length in Ek. simpl in Ek.
                split. { rewrite nth_error_app1, nth_error_app2 by (rewrite ?app_length, cut_length; simpl; lia).
                         rewrite cut_length. replace (k' - length gs) with 0 by lia. reflexivity. }
                split. { rewrite nth_error_app2 by (rewrite app_length, cut_length; simpl; lia).
                         rewrite app_length, cut_length. cbn [length]. replace (S k' - (length gs + 1)) with 0 by lia. reflexivity. }
                rewrite slice_hd by (rewrite ?list_sum_snoc, ?(in_chunks d c) by exact D1; lia).
                rewrite list_sum_snoc, Sk. exact D3.
             ++ destruct I as [[_ [-> ->]]|[_ A]]; [simpl in Hk', Nk; lia|].
                destruct (ag_greedy _ _ _ _ A k') as [d' [c' [mx' [s1 [s2 [G1 [G2 [G3 [G4 G5]]]]]]]]].
                { lia. }
                exists d', c', mx', s1, s2. rewrite (cut_snoc (gs ++ [m])).
                pose proof (cut_length (gs ++ [m]) c') as Hlen.
                rewrite !nth_error_app1 by lia. auto.
          -- intros k' Hk'. destruct (Nat.lt_ge_cases k' (length (gs ++ [m]))) as [Lt|Ge].
             ++ rewrite nth_error_app1 in Hk' by exact Lt.
                destruct I as [[-> [-> ->]]|[_ A]].
                ** simpl in Lt. split; [lia|]. exists d, c, mx. split; [exact D1|]. split; [exact D2|].
                   unfold g in D3. simpl in D3. destruct c; simpl in *; lia.
                ** exact (ag_empty _ _ _ _ A k' Hk').
             ++ rewrite nth_error_app2 in Hk' by exact Ge.
                destruct (k' - length (gs ++ [m])) as [|[|z]]; simpl in Hk'; discriminate.
        * cbn [fst snd]. split.
          -- rewrite E1, map2_map. apply map_ext. intros c'. rewrite cut_snoc, map_app. reflexivity.
          -- apply map_ext_in. intros c' Hc'. rewrite list_sum_snoc, Sk.
             rewrite slice_S by (rewrite (Hn c' Hc'); lia). simpl. rewrite !Nat.add_0_r. reflexivity.
      + exists gs, (S m). split; [right; split; [lia|]|].
        * assert (NX : forall d c mx, nth_error chunks d = Some c -> nth_error maxs d = Some mx -> g c <= mx).
          { intros d c mx H1 H2. destruct (Nat.le_gt_cases (g c) mx); [auto|].
            assert (existsb (fun b => b) (map2 (fun x m => Nat.ltb m x) (map g chunks) maxs) = true)
              by (apply existsb_map2; [exact Hl|eauto 8]). congruence. }
          assert (Sl : forall d c, nth_error chunks d = Some c ->
                       slice (list_sum gs) (S m) c = slice (list_sum gs) m c ++ [nth k c 0]).
          { intros d c H1. rewrite slice_S by (rewrite (in_chunks d c H1); lia). now rewrite Sk. }
          constructor.
          -- rewrite list_sum_snoc. lia.
          -- intros d' c' mx' s' H1 H2 H3. rewrite cut_snoc in H3. apply in_app_or in H3.
             destruct H3 as [H3|[<-|[]]].
             ++ destruct I as [[_ [-> _]]|[_ A]]; [destruct H3|].
                apply (ag_fit _ _ _ _ A d' c' mx' s' H1 H2). rewrite cut_snoc. apply in_or_app. auto.
             ++ left. rewrite (Sl d' c' H1), list_sum_snoc. apply (NX d' c' mx' H1 H2).
          -- intros k' Hk'. rewrite app_length in Hk'. simpl in Hk'.
             destruct I as [[_ [-> _]]|[Hm A]]; [simpl in Hk'; lia|].
             destruct (ag_greedy _ _ _ _ A k') as [d' [c' [mx' [s1 [s2 [G1 [G2 [G3 [G4 G5]]]]]]]]].
             { rewrite app_length; simpl; lia. }
             rewrite cut_snoc in G3, G4.
             destruct (Nat.eq_dec (S k') (length gs)) as [Ek|Nk].
             ++ rewrite nth_error_app1 in G3 by (rewrite cut_length; lia).
                rewrite nth_error_app2, cut_length, Ek, Nat.sub_diag in G4 by (rewrite cut_length; lia).
                injection G4 as <-.
                exists d', c', mx', s1, (slice (list_sum gs) (S m) c').
                rewrite cut_snoc. split; [exact G1|]. split; [exact G2|].
                rewrite nth_error_app1 by (rewrite cut_length; lia). split; [exact G3|].
                rewrite nth_error_app2, cut_length, Ek, Nat.sub_diag by (rewrite cut_length; lia).
                split; [reflexivity|].
                pose proof (in_chunks d' c' G1).
                rewrite slice_hd in * by lia. exact G5.
             ++ exists d', c', mx', s1, s2. rewrite cut_snoc.
                rewrite nth_error_app1 in G3, G4 by (rewrite cut_length; lia).
                rewrite !nth_error_app1 by (rewrite cut_length; lia). auto.
          -- intros k' Hk'. destruct (Nat.lt_ge_cases k' (length gs)) as [Lt|Ge].
             ++ destruct I as [[_ [-> _]]|[_ A]]; [simpl in Lt; lia|].
                apply (ag_empty _ _ _ _ A k'). rewrite nth_error_app1 in * by exact Lt. exact Hk'.
             ++ rewrite nth_error_app2 in Hk' by exact Ge.
                destruct (k' - length gs) as [|[|z]]; simpl in Hk'; discriminate.
        * cbn [fst snd]. split; [exact E1|].
          apply map_ext_in. intros c' Hc'. rewrite slice_S by (rewrite (Hn c' Hc'); lia).
          rewrite list_sum_snoc, Sk. reflexivity.
  Qed.
End Agg.

Theorem aggregate_core_spec chunks maxs :
  match aggregate_core chunks maxs with
  | Ok out => exists n gs, length chunks = length maxs /\ chunks <> [] /\ 0 < n /\
      (forall c, In c chunks -> length c = n) /\
      aggregation chunks maxs n gs /\
      out = map (fun c => map list_sum (cut gs c)) chunks
  | Raise ValueError => length chunks <> length maxs \/
      exists c1 c2, In c1 chunks /\ In c2 chunks /\ length c1 <> length c2
  | Raise IndexError => chunks = [] /\ maxs = []
  | Raise NameError => length chunks = length maxs /\ chunks <> [] /\ forall c, In c chunks -> c = []
  | Raise _ => False
  end.
Proof.
  unfold aggregate_core. destruct (Nat.eqb_spec (length chunks) (length maxs)) as [Hl|Hl]; simpl; [|auto].
  destruct chunks as [|c0 cs] eqn:Ec.
  - split; [reflexivity|]. destruct maxs; [reflexivity|discriminate].
  - rewrite <- Ec in *. destruct (forallb _ chunks) eqn:F; simpl.
    + assert (Hn : forall c, In c chunks -> length c = length c0).
      { intros c Hc. rewrite forallb_forall in F. specialize (F c Hc). apply Nat.eqb_eq in F. auto. }
      pose proof (agg_loop_inv chunks maxs (length c0) Hl Hn (length c0) (le_n _)) as I.
      destruct (for_ _ _ _) as [agg counts]. destruct I as [gs [m [I [E1 E2]]]]. cbn [fst snd] in *.
      destruct (Nat.eqb_spec (length c0) 0) as [Z|Z].
      * split; [exact Hl|]. split; [rewrite Ec; discriminate|].
        intros c Hc. apply Hn in Hc. rewrite Z in Hc. destruct c; [reflexivity|discriminate].
      * destruct I as [[I _]|[Hm A]]; [lia|].
        exists (length c0), (gs ++ [m]). split; [exact Hl|]. split; [rewrite Ec; discriminate|].
        split; [lia|]. split; [exact Hn|]. split; [exact A|].
        rewrite E1, E2, map2_map. apply map_ext. intros c. rewrite cut_snoc, map_app. reflexivity.
    + right.
      assert (X : exists c, In c chunks /\ length c0 <> length c).
      { clear -F. induction chunks as [|a l IH]; simpl in F; [discriminate|].
        apply andb_false_iff in F. destruct F as [F|F].
        - apply Nat.eqb_neq in F. exists a. split; [now left|auto].
        - destruct (IH F) as [c [H1 H2]]. exists c. split; [now right|auto]. }
      destruct X as [c [H1 H2]]. exists c0, c. split; [rewrite Ec; now left|]. auto.
Qed.

Lemma list_sum_cut gs : forall l, list_sum gs = length l -> list_sum (map list_sum (cut gs l)) = list_sum l.
Proof.
  induction gs as [|g r IH]; intros l H; simpl in *.
  - destruct l; [reflexivity|discriminate].
  - rewrite IH by (rewrite skipn_length; lia). rewrite <- list_sum_app, firstn_skipn. reflexivity.
Qed.
