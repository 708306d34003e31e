From Coq Require Import String Ascii QArith QArith.Qcanon Qround Lqa Permutation.
From Verif Require Import Prelude PreludeFacts QcArith QcFacts BarModel BarSpec.
Close Scope string_scope. Close Scope Q_scope. Close Scope Qc_scope.
Open Scope nat_scope.

(* ---------- the dictionary of bins ---------- *)
Lemma find_ddupdate d k f s : find_bin (ddupdate d k f) s = if String.eqb s k then f (find_bin d k) else find_bin d s.
Proof.
  induction d as [|[k' v] d IH]; simpl.
  - destruct (String.eqb s k); reflexivity.
  - destruct (String.eqb k k') eqn:E.
    + apply String.eqb_eq in E. subst k'. simpl. destruct (String.eqb s k); reflexivity.
    + simpl. destruct (String.eqb s k') eqn:E2.
      * apply String.eqb_eq in E2. subst k'. rewrite String.eqb_sym, E. reflexivity.
      * exact IH.
Qed.

Lemma ddupdate_keys d k f s : In s (map fst (ddupdate d k f)) <-> s = k \/ In s (map fst d).
Proof.
  induction d as [|[k' v] d IH]; simpl.
  - intuition.
  - destruct (String.eqb k k') eqn:E; simpl.
    + apply String.eqb_eq in E. subst k'. intuition.
    + rewrite IH. intuition.
Qed.

Lemma ddupdate_nodup d k f : NoDup (map fst d) -> NoDup (map fst (ddupdate d k f)).
Proof.
  induction d as [|[k' v] d IH]; simpl; intros N.
  - constructor; [easy|constructor].
  - inversion N; subst. destruct (String.eqb k k') eqn:E; simpl.
    + constructor; assumption.
    + constructor; [|auto]. rewrite ddupdate_keys. intros [->|C]; [|easy]. now rewrite String.eqb_refl in E.
Qed.

Lemma find_in d s v : NoDup (map fst d) -> In (s, v) d -> find_bin d s = v.
Proof.
  induction d as [|[k' v'] d IH]; simpl; [easy|]. intros N [E|I].
  - injection E as -> ->. now rewrite String.eqb_refl.
  - inversion N; subst. destruct (String.eqb s k') eqn:E; [|auto].
    apply String.eqb_eq in E. subst k'. exfalso. apply H1. apply (in_map fst) in I. exact I.
Qed.

Lemma find_out d s : ~ In s (map fst d) -> find_bin d s = no_data.
Proof.
  induction d as [|[k' v'] d IH]; simpl; [easy|]. intros N. destruct (String.eqb s k') eqn:E; [|auto].
  apply String.eqb_eq in E. subst. tauto.
Qed.

Section Bar.
  Context (key : Type) (key_eqb : key -> key -> bool) (bin_of : key -> res string).
  Hypothesis Eqb : forall a b, key_eqb a b = true <-> a = b.
  Notation since := (since key key_eqb). Notation finished_in := (finished_in key bin_of).
  Notation spent_in := (spent_in key key_eqb bin_of). Notation tasks_in := (tasks_in key bin_of).
  Notation in_bin := (in_bin key bin_of). Notation handle := (handle key key_eqb bin_of).
  Notation handle_all := (handle_all key key_eqb bin_of). Notation start := (start key bin_of).
  Notation orderly := (orderly key key_eqb).

  Fixpoint look (l : list (key * Qc)) (k : key) : option Qc :=
    match l with [] => None | (k', t) :: l => if key_eqb k k' then Some t else look l k end.

  Lemma eqb_refl k : key_eqb k k = true. Proof. now apply Eqb. Qed.
  Lemma eqb_sym a b : key_eqb a b = key_eqb b a.
  Proof.
    destruct (key_eqb a b) eqn:E; symmetry.
    - apply Eqb in E. subst. apply eqb_refl.
    - destruct (key_eqb b a) eqn:F; [|reflexivity]. apply Eqb in F. subst. rewrite eqb_refl in E. discriminate.
  Qed.

  Lemma look_assign l k t k' : look (assign key key_eqb l k t) k' = if key_eqb k' k then Some t else look l k'.
  Proof.
    induction l as [|[a ta] l IH]; simpl.
    - destruct (key_eqb k' k); reflexivity.
    - destruct (key_eqb k a) eqn:E; simpl.
      + apply Eqb in E. subst a. destruct (key_eqb k' k); reflexivity.
      + destruct (key_eqb k' a) eqn:E2; [|exact IH].
        apply Eqb in E2. subst a. rewrite eqb_sym, E. reflexivity.
  Qed.
  Lemma assign_keys l k t a : In a (map fst (assign key key_eqb l k t)) <-> a = k \/ In a (map fst l).
  Proof.
    induction l as [|[k' v] l IH]; simpl; [intuition|].
    destruct (key_eqb k k') eqn:E; simpl.
    - apply Eqb in E. subst. intuition.
    - rewrite IH. intuition.
  Qed.
  Lemma assign_nodup l k t : NoDup (map fst l) -> NoDup (map fst (assign key key_eqb l k t)).
  Proof.
    induction l as [|[k' v] l IH]; simpl; intros N.
    - constructor; [easy|constructor].
    - inversion N; subst. destruct (key_eqb k k') eqn:E; simpl.
      + constructor; assumption.
      + constructor; [|auto]. rewrite assign_keys. intros [->|C]; [|easy]. now rewrite eqb_refl in E.
  Qed.
  Lemma look_out l k : ~ In k (map fst l) -> look l k = None.
  Proof.
    induction l as [|[a ta] l IH]; simpl; [easy|]. intros N. destruct (key_eqb k a) eqn:E; [|auto].
    apply Eqb in E. subst. tauto.
  Qed.

  Lemma pop_none l k : pop key key_eqb l k = None <-> look l k = None.
  Proof.
    induction l as [|[a ta] l IH]; simpl; [easy|]. destruct (key_eqb k a); [split; discriminate|].
    destruct (pop key key_eqb l k) as [[t l']|]; [|easy]. split; [discriminate|]. intros H. apply IH in H. discriminate.
  Qed.
  Lemma pop_some l k t l' : NoDup (map fst l) -> pop key key_eqb l k = Some (t, l') ->
    look l k = Some t /\ NoDup (map fst l') /\ incl (map fst l') (map fst l) /\
    forall k', look l' k' = if key_eqb k' k then None else look l k'.
  Proof.
    revert l'. induction l as [|[a ta] l IH]; simpl; [easy|]. intros l' N H. inversion N; subst.
    destruct (key_eqb k a) eqn:E.
    - injection H as -> <-. apply Eqb in E. subst a. split; [reflexivity|]. split; [assumption|].
      split; [intros x; now right|]. intros k'. destruct (key_eqb k' k) eqn:E; [|reflexivity].
      apply Eqb in E. subst. now apply look_out.
    - destruct (pop key key_eqb l k) as [[t' l'']|] eqn:P; [|discriminate]. injection H as -> <-.
      destruct (IH l'' H3 eq_refl) as (A & B & C & D). split; [exact A|]. simpl. split.
      + constructor; [|exact B]. intros X. apply C in X. tauto.
      + split.
        * intros x [->|X]; [now left|right; now apply C].
        * intros k'. rewrite D. destruct (key_eqb k' a) eqn:E2; [|reflexivity].
          apply Eqb in E2. subst a. rewrite eqb_sym, E. reflexivity.
  Qed.

  (* ---------- start ---------- *)
  Definition counted (d : ddict) (c : string -> nat) (n : string -> nat) (t : string -> Qc) : Prop :=
    NoDup (map fst d) /\ forall s, find_bin d s = {| completed := c s; total := n s; time_sum := t s |}.

  Lemma start_fold dsk : forall d d' pre,
    fold_left (fun (d : res ddict) k =>
       do! d <- d; do! b <- bin_of k;
       Ok (ddupdate d b (fun v => {| completed := completed v; total := total v + 1; time_sum := time_sum v |})))
      dsk (Ok d) = Ok d' ->
    counted d (fun _ => 0) (fun s => tasks_in s pre) (fun _ => 0%Qc) ->
    (forall s, In s (map fst d) <-> exists k, In k pre /\ bin_of k = Ok s) ->
    counted d' (fun _ => 0) (fun s => tasks_in s (pre ++ dsk)) (fun _ => 0%Qc) /\
    (forall s, In s (map fst d') <-> exists k, In k (pre ++ dsk) /\ bin_of k = Ok s) /\
    (forall k, In k dsk -> exists s, bin_of k = Ok s).
  Proof.
    induction dsk as [|k dsk IH]; simpl; intros d d' pre H C K.
    - injection H as <-. rewrite app_nil_r. split; [exact C|]. split; [exact K|easy].
    - destruct (bin_of k) as [s|e] eqn:B; simpl in H.
      2:{ exfalso. clear - H. induction dsk as [|k dsk IH]; simpl in H; [discriminate|auto]. }
      apply (IH _ _ (pre ++ [k])) in H.
      + rewrite <- app_assoc in H. simpl in H. destruct H as (H1 & H2 & H3). split; [exact H1|]. split; [exact H2|].
        intros k' [<-|I]; [eauto|auto].
      + destruct C as [C1 C2]. split; [now apply ddupdate_nodup|]. intros s'. rewrite find_ddupdate.
        unfold tasks_in. unfold BarSpec.tasks_in. rewrite filter_app, app_length. simpl. unfold BarSpec.in_bin at 2. rewrite B.
        destruct (String.eqb s' s) eqn:E.
        * apply String.eqb_eq in E. subst s'. rewrite C2. reflexivity.
        * rewrite C2. unfold BarSpec.tasks_in. f_equal. simpl. lia.
      + intros s'. rewrite ddupdate_keys, K. split.
        * intros [->|(k' & I & E)]; [exists k; rewrite in_app_iff; simpl; auto|].
          exists k'. rewrite in_app_iff. auto.
        * intros (k' & I & E). rewrite in_app_iff in I. destruct I as [I|[<-|[]]]; [right; eauto|].
          left. congruence.
  Qed.

  Lemma start_ok dsk b : start dsk = Ok b ->
    counted (data b) (fun _ => 0) (fun s => tasks_in s dsk) (fun _ => 0%Qc) /\ started b = [] /\ running b = true /\
    (forall s, In s (map fst (data b)) <-> exists k, In k dsk /\ bin_of k = Ok s) /\
    (forall k, In k dsk -> exists s, bin_of k = Ok s).
  Proof.
    unfold BarModel.start. intros H.
    match type of H with context [fold_left ?f dsk ?a] => destruct (fold_left f dsk a) as [d|e] eqn:F end; [|discriminate]. simpl in H. injection H as <-. simpl.
    apply (start_fold dsk [] d []) in F.
    - simpl in F. tauto.
    - split; [constructor|]. intros s. reflexivity.
    - intros s. simpl. split; [easy|]. intros (k & [] & _).
  Qed.

  (* ---------- events ---------- *)
  Definition good (dsk : list key) (past : list (event key)) (b : bar key) : Prop :=
    counted (data b) (fun s => finished_in s past) (fun s => tasks_in s dsk) (fun s => spent_in s past) /\
    NoDup (map fst (started b)) /\ (forall k, look (started b) k = since past k).

  Lemma good_step dsk past b e b' : good dsk past b -> handle b e = Ok b' -> good dsk (e :: past) b'.
  Proof.
    intros ((G1 & G2) & G3 & G4) H. destruct e as [k now|k now]; simpl in H.
    - injection H as <-. split; [split; [exact G1|exact G2]|]. split; simpl; [now apply assign_nodup|].
      intros k'. rewrite look_assign, G4. reflexivity.
    - unfold posttask in H. destruct (bin_of k) as [s|e] eqn:B; [|discriminate]. simpl in H.
      destruct (pop key key_eqb (started b) k) as [[t rest]|] eqn:P; [|discriminate]. injection H as <-.
      destruct (pop_some _ _ _ _ G3 P) as (A & C & _ & D). split; [|split; [exact C|]].
      + split; simpl; [now apply ddupdate_nodup|]. intros s'. rewrite find_ddupdate.
        rewrite <- G4, A. unfold BarSpec.in_bin. rewrite B.
        destruct (String.eqb s' s) eqn:E.
        * apply String.eqb_eq in E. subst s'. rewrite G2. simpl. f_equal; [lia|ring].
        * rewrite G2. reflexivity.
      + simpl. intros k'. rewrite D, G4. reflexivity.
  Qed.

  Lemma good_all dsk es : forall past b b', good dsk past b -> handle_all b es = Ok b' -> good dsk (rev es ++ past) b'.
  Proof.
    induction es as [|e es IH]; simpl; intros past b b' G H; [injection H as <-; exact G|].
    destruct (handle b e) as [b1|] eqn:E; [|discriminate]. simpl in H.
    rewrite <- app_assoc. simpl. eapply IH; [|exact H]. eapply good_step; eauto.
  Qed.

  Lemma good_start dsk b : start dsk = Ok b -> good dsk [] b.
  Proof.
    intros H. apply start_ok in H. destruct H as (A & B & _). split; [exact A|]. rewrite B. simpl. split; [constructor|reflexivity].
  Qed.

  Lemma counts dsk es b0 b s : start dsk = Ok b0 -> handle_all b0 es = Ok b ->
    find_bin (data b) s = {| completed := finished_in s (rev es); total := tasks_in s dsk; time_sum := spent_in s (rev es) |}.
  Proof.
    intros H1 H2. apply good_start in H1. apply (good_all dsk es [] b0 b H1) in H2. rewrite app_nil_r in H2.
    destruct H2 as ((_ & G) & _). apply G.
  Qed.

  Lemma orderly_app a b : orderly (a ++ b) -> orderly b.
  Proof. induction a as [|[] a IH]; simpl; tauto. Qed.

  Lemma handle_cases dsk es : (forall k, exists s, bin_of k = Ok s) -> forall past b, good dsk past b -> orderly past ->
    (orderly (rev es ++ past) -> exists b', handle_all b es = Ok b') /\
    (~ orderly (rev es ++ past) -> handle_all b es = Raise KeyError).
  Proof.
    intros Bin. induction es as [|e es IH]; simpl; intros past b G O.
    - split; [eauto|tauto].
    - rewrite <- app_assoc. simpl.
      destruct (handle b e) as [b1|x] eqn:E; simpl.
      + apply IH; [eapply good_step; eauto|].
        destruct e as [k now|k now]; simpl; [exact O|]. split; [|exact O].
        simpl in E. unfold posttask in E. destruct (bin_of k); [|discriminate]. simpl in E.
        destruct G as (_ & _ & G). rewrite <- G. intros C. apply pop_none in C. rewrite C in E. discriminate.
      + destruct e as [k now|k now]; [discriminate|]. simpl in E. unfold posttask in E.
        destruct (Bin k) as [s Bs]. rewrite Bs in E. simpl in E.
        destruct (pop key key_eqb (started b) k) as [[t r]|] eqn:P; [discriminate|]. injection E as <-.
        split; [|reflexivity]. intros X. apply orderly_app in X. simpl in X. destruct X as [X _].
        exfalso. apply X. destruct G as (_ & _ & G). rewrite <- G. now apply pop_none.
  Qed.

  Lemma handled dsk es b0 : (forall k, exists s, bin_of k = Ok s) -> start dsk = Ok b0 ->
    (orderly (rev es) -> exists b, handle_all b0 es = Ok b) /\ (~ orderly (rev es) -> handle_all b0 es = Raise KeyError).
  Proof.
    intros Bin H. apply good_start in H. pose proof (handle_cases dsk es Bin [] b0 H I) as X. rewrite app_nil_r in X. exact X.
  Qed.

  (* ---------- bins present ---------- *)
  Lemma bins_all es : forall b b', handle_all b es = Ok b' ->
    forall s, In s (map fst (data b')) <-> In s (map fst (data b)) \/ exists k, In k (finished key es) /\ bin_of k = Ok s.
  Proof.
    induction es as [|e es IH]; simpl; intros b b' H s.
    - injection H as <-. split; [tauto|]. intros [A|(k & [] & _)]; exact A.
    - destruct (handle b e) as [b1|] eqn:E; [|discriminate]. simpl in H. rewrite (IH _ _ H s).
      destruct e as [k now|k now]; simpl in *.
      + injection E as <-. simpl. reflexivity.
      + unfold posttask in E. destruct (bin_of k) as [s'|] eqn:B; [|discriminate]. simpl in E.
        destruct (pop _ _ _ _) as [[t r]|]; [|discriminate]. injection E as <-. simpl. rewrite ddupdate_keys. split.
        * intros [[->|A]|(k' & A & F)]; [right; eauto|now left|right; eauto].
        * intros [A|(k' & [<-|A] & F)]; [tauto| |right; eauto]. left. left. congruence.
  Qed.
  Lemma finished_bins es : forall b b', handle_all b es = Ok b' -> forall k, In k (finished key es) -> exists s, bin_of k = Ok s.
  Proof.
    induction es as [|e es IH]; simpl; intros b b' H k I; [easy|].
    destruct (handle b e) as [b1|] eqn:E; [|discriminate]. simpl in H.
    destruct e as [k' now|k' now]; simpl in *; [eauto|]. destruct I as [<-|I]; [|eauto].
    unfold posttask in E. destruct (bin_of k'); [eauto|discriminate].
  Qed.

  Lemma finished_count s es : finished_in s (rev es) = length (filter (in_bin s) (finished key es)).
  Proof.
    assert (A : forall a b, finished_in s (a ++ b) = finished_in s a + finished_in s b).
    { induction a as [|[] a IH]; simpl; intros; rewrite ?IH; lia. }
    induction es as [|e es IH]; simpl; [reflexivity|]. rewrite A, IH.
    destruct e as [k now|k now]; simpl; [lia|]. destruct (in_bin s k); simpl; lia.
  Qed.

  Lemma nodup_filter_incl {A} (p : A -> bool) l l' : NoDup l -> incl l l' -> length (filter p l) <= length (filter p l').
  Proof.
    intros N I. apply NoDup_incl_length; [now apply NoDup_filter|].
    intros x H. apply filter_In in H. apply filter_In. split; [apply I|]; tauto.
  Qed.

  (* ---------- sums ---------- *)
  Lemma qsum_plus {A} (f g : A -> Qc) l : qsum (fun a => (f a + g a)%Qc) l = (qsum f l + qsum g l)%Qc.
  Proof. induction l as [|a l IH]; simpl; [ring|]. rewrite IH. ring. Qed.
  Lemma qsum_ext {A} (f g : A -> Qc) l : (forall a, In a l -> f a = g a) -> qsum f l = qsum g l.
  Proof. intros H. induction l as [|a l IH]; simpl; [reflexivity|]. rewrite H, IH; [reflexivity|intros; apply H; now right|now left]. Qed.
  Lemma qsum_zero {A} (f : A -> Qc) l : (forall a, In a l -> f a = 0%Qc) -> qsum f l = 0%Qc.
  Proof. intros H. induction l as [|a l IH]; simpl; [reflexivity|]. rewrite H, IH; [ring|intros; apply H; now right|now left]. Qed.
  Lemma qsum_mid {A} (f : A -> Qc) a l1 l2 : qsum f (l1 ++ a :: l2) = (f a + qsum f (l1 ++ l2))%Qc.
  Proof. induction l1 as [|b l1 IH]; simpl; [reflexivity|]. rewrite IH. ring. Qed.
  Lemma qsum_support {A} (f : A -> Qc) l l' : NoDup l -> NoDup l' -> incl l l' ->
    (forall a, In a l' -> ~ In a l -> f a = 0%Qc) -> qsum f l' = qsum f l.
  Proof.
    revert l'. induction l as [|a l IH]; intros l' N N' I Z.
    - simpl. apply qsum_zero. intros a H. apply Z; auto.
    - inversion N; subst. destruct (in_split a l') as (l1 & l2 & ->); [apply I; now left|].
      rewrite qsum_mid. simpl. f_equal. pose proof (NoDup_remove_1 _ _ _ N') as N1. pose proof (NoDup_remove_2 _ _ _ N') as N2.
      apply IH; [assumption|exact N1| |].
      + intros x X. assert (Y : In x (l1 ++ a :: l2)) by (apply I; now right).
        rewrite in_app_iff in *. simpl in Y. destruct Y as [Y|[->|Y]]; [tauto|contradiction|tauto].
      + intros x X Y. apply Z.
        * rewrite in_app_iff in *. simpl. tauto.
        * intros [->|W]; [|tauto]. contradiction.
  Qed.

  Lemma spent_spent_in bins past : NoDup bins -> (forall k t, In (Post k t) past -> exists s, In s bins /\ bin_of k = Ok s) ->
    spent key key_eqb past = qsum (fun s => spent_in s past) bins.
  Proof.
    intros N. induction past as [|e past IH]; simpl; intros H.
    - symmetry. apply qsum_zero. reflexivity.
    - destruct e as [k now|k now]; [apply IH; eauto|].
      assert (IH' := IH (fun k t I => H k t (or_intror I))).
      destruct (since past k) as [t|]; [|exact IH'].
      destruct (H k now (or_introl eq_refl)) as (s & I & B).
      rewrite (qsum_ext _ (fun s' => ((if String.eqb s' s then (now - t)%Qc else 0%Qc) + spent_in s' past)%Qc)).
      2:{ intros s' _. unfold BarSpec.in_bin. rewrite B. destruct (String.eqb s' s); [reflexivity|ring]. }
      rewrite qsum_plus, IH'. f_equal. clear - N I.
      destruct (in_split s bins I) as (l1 & l2 & ->). rewrite qsum_mid, String.eqb_refl, qsum_zero; [ring|].
      intros a A. destruct (String.eqb a s) eqn:E; [|reflexivity]. apply String.eqb_eq in E. subst.
      apply NoDup_remove_2 in N. contradiction.
  Qed.

  Lemma all_bins_sums d : forall acc, fold_left (fun s kv => add_bin s (snd kv)) d acc =
    {| s_total := s_total acc + list_sum (map (fun kv : string * task_data => total (snd kv)) d);
       s_completed := s_completed acc + list_sum (map (fun kv : string * task_data => completed (snd kv)) d);
       s_estimated := (s_estimated acc + qsum (fun kv : string * task_data => if Nat.ltb 0 (completed (snd kv)) then time_sum (snd kv) / Qc_of_nat (completed (snd kv)) * Qc_of_nat (total (snd kv)) else 0) d)%Qc;
       s_guess := (s_guess acc + qsum (fun kv : string * task_data => if Nat.ltb 0 (completed (snd kv)) then time_sum (snd kv) else 0) d)%Qc |}.
  Proof.
    induction d as [|kv d IH]; intros acc; simpl.
    - destruct acc as [a b c e]; simpl. f_equal; try lia; ring.
    - rewrite IH. unfold add_bin. simpl. f_equal; try lia; destruct (Nat.ltb 0 (completed (snd kv))); ring.
  Qed.

  Lemma ddupdate_sum d k f (g : task_data -> nat) n : g no_data = 0 -> (forall v, g (f v) = n + g v) ->
    list_sum (map (fun kv : string * task_data => g (snd kv)) (ddupdate d k f)) = n + list_sum (map (fun kv : string * task_data => g (snd kv)) d).
  Proof.
    intros Z F. induction d as [|[k' v] d IH]; simpl.
    - rewrite F, Z. lia.
    - destruct (String.eqb k k'); simpl; [rewrite F; lia|]. rewrite IH. lia.
  Qed.
  Lemma completed_all es : forall b b', handle_all b es = Ok b' ->
    list_sum (map (fun kv : string * task_data => completed (snd kv)) (data b')) = length (finished key es) + list_sum (map (fun kv : string * task_data => completed (snd kv)) (data b)).
  Proof.
    induction es as [|e es IH]; simpl; intros b b' H; [injection H as <-; reflexivity|].
    destruct (handle b e) as [b1|] eqn:E; [|discriminate]. simpl in H. rewrite (IH _ _ H).
    destruct e as [k now|k now]; simpl in *; [injection E as <-; reflexivity|].
    unfold posttask in E. destruct (bin_of k) as [s'|] eqn:B; [|discriminate]. simpl in E.
    destruct (pop _ _ _ _) as [[t r]|]; [|discriminate]. injection E as <-. simpl.
    rewrite (ddupdate_sum _ _ _ _ 1); [lia|reflexivity|intros; simpl; lia].
  Qed.
  Lemma completed_zero (d : ddict) : (forall s v, In (s, v) d -> completed v = 0) -> list_sum (map (fun kv : string * task_data => completed (snd kv)) d) = 0.
  Proof.
    induction d as [|[s v] d IH]; simpl; intros H; [reflexivity|]. rewrite (H s v), IH; [reflexivity| |now left].
    intros s' v' I. apply (H s'). now right.
  Qed.

  Lemma finished_post es k : In k (finished key es) <-> exists t, In (Post k t) es.
  Proof.
    unfold finished. rewrite in_flat_map. split.
    - intros ([k' t|k' t] & I & J); simpl in J; [easy|]. destruct J as [->|[]]. eauto.
    - intros (t & I). exists (Post k t). simpl. auto.
  Qed.

  Lemma spent_nonneg_in s past : forward key key_eqb past -> (0 <= spent_in s past)%Qc.
  Proof.
    induction past as [|[k t|k t] past IH]; simpl; [intros _; apply Qcle_refl|exact IH|].
    intros [A B]. specialize (IH B). destruct (since past k) as [t0|]; [|exact IH]. destruct (in_bin s k); [|exact IH].
    specialize (A t0 eq_refl). qc_norm. change (this 0%Qc) with 0%Q in *. lra.
  Qed.

  (* the four sums in terms of the history *)
  Lemma sums_are dsk es b0 b bins : start dsk = Ok b0 -> handle_all b0 es = Ok b -> incl (finished key es) dsk ->
    NoDup bins -> (forall k, In k dsk -> exists s, In s bins /\ bin_of k = Ok s) ->
    s_completed (all_bins (data b)) = length (finished key es) /\
    s_estimated (all_bins (data b)) = qsum (needed_in key key_eqb bin_of dsk (rev es)) bins /\
    s_guess (all_bins (data b)) = spent key key_eqb (rev es).
  Proof.
    intros S H I N K. unfold all_bins. rewrite all_bins_sums. simpl.
    pose proof (counts dsk es b0 b) as C. specialize (fun s => C s S H) as C'. clear C.
    pose proof (good_all dsk es [] b0 b (good_start _ _ S) H) as ((Nd & _) & _).
    pose proof (bins_all es b0 b H) as P. pose proof (start_ok dsk b0 S) as ((N0 & C0) & _ & _ & P0 & B0).
    assert (Sub : incl (map fst (data b)) bins).
    { intros s X. apply P in X. rewrite P0 in X.
      assert (Y : exists k, In k dsk /\ bin_of k = Ok s).
      { destruct X as [X|(k & X & Y)]; [exact X|exists k; split; [now apply I|exact Y]]. }
      destruct Y as (k & Y & E). destruct (K k Y) as (s' & Z & E'). congruence. }
    assert (V : forall s v, In (s, v) (data b) ->
        v = {| completed := finished_in s (rev es); total := tasks_in s dsk; time_sum := spent_in s (rev es) |}).
    { intros s v X. rewrite <- C'. symmetry. now apply find_in. }
    assert (Out : forall s, ~ In s (map fst (data b)) -> finished_in s (rev es) = 0 /\ spent_in s (rev es) = 0%Qc).
    { intros s X. pose proof (find_out _ _ X) as Y. rewrite C' in Y. injection Y as Y1 Y2 Y3. auto. }
    assert (Zero : forall s, finished_in s (rev es) = 0 -> spent_in s (rev es) = 0%Qc).
    { intros s. generalize (rev es). induction l as [|[k t|k t] l IH]; simpl; intros X; [reflexivity|auto|].
      destruct (in_bin s k); [discriminate|]. rewrite (IH X). destruct (since l k); reflexivity. }
    split; [|split].
    - rewrite (completed_all es b0 b H). rewrite completed_zero; [lia|].
      intros s v X. rewrite <- (find_in _ _ _ N0 X), C0. reflexivity.
    - rewrite Qcplus_0_l. rewrite (qsum_support (needed_in key key_eqb bin_of dsk (rev es)) (map fst (data b)) bins Nd N Sub).
      2:{ intros s _ X. unfold needed_in. destruct (Out s X) as [-> _]. reflexivity. }
      clear - V. induction (data b) as [|[s v] d IH]; simpl; [reflexivity|].
      rewrite IH; [|intros; apply V; now right]. f_equal. rewrite (V s v (or_introl eq_refl)). simpl. unfold needed_in.
      destruct (finished_in s (rev es)); reflexivity.
    - rewrite Qcplus_0_l, (spent_spent_in bins).
      2: exact N.
      2:{ intros k t X. apply in_rev in X. assert (F : In k (finished key es)) by (apply finished_post; eauto).
          apply I in F. apply K, F. }
      rewrite (qsum_support _ (map fst (data b)) bins Nd N Sub).
      2:{ intros s _ X. now apply Out. }
      clear - V Zero. induction (data b) as [|[s v] d IH]; simpl; [reflexivity|].
      rewrite IH; [|intros; apply V; now right]. f_equal. rewrite (V s v (or_introl eq_refl)). simpl.
      destruct (finished_in s (rev es)) eqn:F; [|reflexivity]. rewrite Zero; [reflexivity|exact F].
  Qed.
End Bar.
