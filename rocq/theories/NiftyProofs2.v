(* schedules of the stream reduction *)
From Coq Require Import Reals Permutation FunctionalExtensionality.
From Verif Require Import Prelude PreludeFacts CRing CplxR DftModel DftProofs NiftyModel NiftySpec NiftyProofs.
Close Scope R_scope.
Open Scope nat_scope.

(* sum of the blocks a to a + k *)
Definition from_to (F : nat -> RC) (a k : nat) : RC := csum k (fun i => F (a + i)).
Lemma from_to_S F a k : from_to F a (S k) = cadd (from_to F a k) (F (a + k)).
Proof. reflexivity. Qed.

Section Run.
  Variable gridding : nat -> nat -> nat * nat -> nat * nat -> option grid2 -> grid2.
  Hypothesis Hadd : adds_in gridding.
  Variables (in_place : bool) (c n : nat).
  Hypothesis Hc : 0 < c.
  Hypothesis Hn : 0 < n.
  Let dsk := map (task_of c) (seq 0 n) ++ [(KSum 0 0, TSum (map (tip c n) (seq 0 ((n + c - 1) / c))))].
  Definition part (rb : nat) : grid2 := gridding rb rb (rb, 0) (rb, 0) None.
  Definition first (rb : nat) : nat := rb / c * c.
  (* the sum of a stream up to block rb *)
  Definition so_far (rb x y : nat) : RC := from_to (fun i => part i x y) (first rb) (S (rb - first rb)).
  Definition total (x y : nat) : RC := csum n (fun rb => part rb x y).

  Lemma first_le rb : first rb <= rb < first rb + c.
  Proof. unfold first. pose proof (Nat.div_mod rb c ltac:(lia)). pose proof (Nat.mod_upper_bound rb c ltac:(lia)). nia. Qed.
  Lemma first_start rb : rb mod c = 0 <-> first rb = rb.
  Proof. unfold first. pose proof (Nat.div_mod rb c ltac:(lia)). split; nia. Qed.
  Lemma first_mid rb : rb mod c <> 0 -> 0 < rb /\ first (rb - 1) = first rb.
  Proof.
    intros H. assert (rb <> 0) by (intros ->; apply H; apply Nat.mod_0_l; lia). split; [lia|]. unfold first. f_equal. pose proof (Nat.div_mod rb c ltac:(lia)). pose proof (Nat.mod_upper_bound rb c ltac:(lia)).
    symmetry. apply (Nat.div_unique (rb - 1) c (rb / c) (rb mod c - 1)); lia.
  Qed.
  Lemma first_next rb : first (S rb) = first rb \/ S rb mod c = 0.
  Proof. destruct (Nat.eq_dec (S rb mod c) 0); [now right|left]. destruct (first_mid (S rb) n0) as (_ & E). replace (S rb - 1) with rb in E by lia. now symmetry. Qed.
  Lemma first_between a b t : first a = first b -> a <= t <= b -> first t = first b.
  Proof. unfold first. intros E H. assert (a / c = b / c) by nia. pose proof (Nat.div_le_mono a t c ltac:(lia) ltac:(lia)). pose proof (Nat.div_le_mono t b c ltac:(lia) ltac:(lia)). f_equal. lia. Qed.
  Lemma so_far_start rb x y : rb mod c = 0 -> so_far rb x y = part rb x y.
  Proof. intros H. unfold so_far. apply first_start in H. rewrite H, Nat.sub_diag. unfold from_to. cbn [csum]. rewrite Nat.add_0_r. apply injective_projections; cbn; ring. Qed.
  Lemma so_far_mid rb x y : rb mod c <> 0 -> so_far rb x y = cadd (so_far (rb - 1) x y) (part rb x y).
  Proof.
    intros H. destruct (first_mid rb H) as (H0 & E). unfold so_far. rewrite E. pose proof (first_le (rb - 1)). rewrite E in H1. replace (S (rb - first rb)) with (S (S (rb - 1 - first rb))) by lia.
    rewrite from_to_S. now replace (first rb + S (rb - 1 - first rb)) with rb by lia.
  Qed.

  Definition at_ (m : mem) (rb a : nat) : Prop := addr m (KGrid rb 0) = Some a.
  (* the block has not been added to *)
  Definition open (m : mem) (rb : nat) : Prop := S rb mod c = 0 \/ addr m (KGrid (S rb) 0) = None.
  Record inv (m : mem) : Prop := {
    i_next : forall k a, addr m k = Some a -> a < next m;
    i_known : forall k a, addr m k = Some a -> k = KSum 0 0 \/ exists rb, rb < n /\ k = KGrid rb 0;
    i_down : forall rb a, at_ m rb a -> rb mod c <> 0 -> exists a', at_ m (rb - 1) a';
    i_apart : forall rb rb' a, at_ m rb a -> at_ m rb' a -> first rb = first rb';
    i_sum_apart : forall rb a, at_ m rb a -> addr m (KSum 0 0) <> Some a;
    i_open : forall rb a x y, at_ m rb a -> open m rb -> heap m a x y = so_far rb x y;
    i_sum : forall a x y, addr m (KSum 0 0) = Some a -> heap m a x y = total x y
  }.
  Lemma start_inv : inv start_mem.
  Proof. constructor; cbn; try discriminate; unfold at_; cbn; discriminate. Qed.
  Lemma down_all m : inv m -> forall d rb a, at_ m rb a -> first rb <= rb - d -> exists a', at_ m (rb - d) a'.
  Proof.
    intros I. induction d as [|d IH]; intros rb a H L; [rewrite Nat.sub_0_r; eauto|]. destruct (Nat.le_gt_cases rb d) as [Hle|Hgt].
    { replace (rb - S d) with (rb - d) by lia. apply (IH rb a H). lia. }
    destruct (IH rb a H ltac:(lia)) as (a1 & H1). destruct (i_down m I _ _ H1) as (a2 & H2); [|exists a2; now replace (rb - S d) with (rb - d - 1) by lia].
    intros E. apply first_start in E. assert (F : first (rb - d) = first rb). { apply (first_between (first rb) rb (rb - d)); [|lia]. unfold first. rewrite Nat.div_mul by lia. reflexivity. } lia.
  Qed.
  Lemma put_addr m k a g k' : addr (put m k a g) k' = if keqb k k' then Some a else addr m k'.
  Proof. reflexivity. Qed.
  Lemma put_next m k a g : a <= next m -> next m <= next (put m k a g) /\ a < next (put m k a g).
  Proof. cbn. destruct (Nat.eqb_spec a (next m)); lia. Qed.
  Lemma grid_step m rb a g : inv m -> rb < n -> addr m (KGrid rb 0) = None ->
    (a = next m \/ (rb mod c <> 0 /\ at_ m (rb - 1) a)) -> (rb mod c <> 0 -> exists a', at_ m (rb - 1) a') -> (forall x y, g x y = so_far rb x y) -> inv (put m (KGrid rb 0) a g).
  Proof.
    intros I Hrb Hnone Ha Hl Hg.
    assert (La : a <= next m). { destruct Ha as [Ea|(_ & H)]; [lia|]. pose proof (i_next m I _ _ H). lia. }
    assert (Ks : forall k, k <> KGrid rb 0 -> addr (put m (KGrid rb 0) a g) k = addr m k). { intros k Hk. rewrite put_addr. destruct (keqb_spec (KGrid rb 0) k); congruence. }
    assert (Ke : addr (put m (KGrid rb 0) a g) (KGrid rb 0) = Some a). { rewrite put_addr. destruct (keqb_spec (KGrid rb 0) (KGrid rb 0)); congruence. }
    assert (Same : forall rb', at_ m rb' a -> first rb' = first rb /\ rb' < rb).
    { intros rb' H. destruct Ha as [Ea|(Hm & H1)]; [pose proof (i_next m I _ _ H); lia|]. destruct (first_mid rb Hm) as (P & F). pose proof (i_apart m I _ _ _ H H1) as E. split; [lia|].
      destruct (Nat.lt_ge_cases rb' rb) as [|G]; [assumption|exfalso]. destruct (Nat.eq_dec rb' rb) as [->|]; [unfold at_ in H; congruence|].
      pose proof (first_le rb). destruct (down_all m I (rb' - rb) rb' a H ltac:(lia)) as (a1 & H2). replace (rb' - (rb' - rb)) with rb in H2 by lia. unfold at_ in H2. congruence. }
    constructor.
    - intros k a' H. destruct (put_next m (KGrid rb 0) a g La). destruct (keqb_spec (KGrid rb 0) k) as [<-|Hk]; [rewrite Ke in H; injection H as <-; assumption|].
      rewrite Ks in H by congruence. pose proof (i_next m I _ _ H). lia.
    - intros k a' H. destruct (keqb_spec (KGrid rb 0) k) as [<-|Hk]; [right; exists rb; now split|]. rewrite Ks in H by congruence. exact (i_known m I _ _ H).
    - intros rb' a' H Hm. unfold at_ in *. destruct (Nat.eq_dec rb' rb) as [->|Hne].
      + destruct (Hl Hm) as (a2 & H2). exists a2. rewrite Ks; [exact H2|]. pose proof (first_mid rb Hm). intros E. injection E. lia.
      + rewrite Ks in H by congruence. destruct (i_down m I _ _ H Hm) as (a2 & H2). unfold at_ in H2. destruct (Nat.eq_dec (rb' - 1) rb) as [E|E]; [rewrite E in H2; congruence|]. exists a2. rewrite Ks by congruence. exact H2.
    - assert (X : forall r a', at_ (put m (KGrid rb 0) a g) r a' -> (r = rb /\ a' = a) \/ at_ m r a').
      { intros r a' H. unfold at_ in *. destruct (Nat.eq_dec r rb) as [->|]; [left; rewrite Ke in H; split; congruence|right; now rewrite Ks in H by congruence]. }
      intros r r' a' H H'. apply X in H, H'. destruct H as [(Er & Ea)|H], H' as [(Er' & Ea')|H']; subst; [reflexivity| | |exact (i_apart m I _ _ _ H H')].
      + symmetry. now apply Same.
      + now apply Same.
    - intros r a' H. rewrite Ks by discriminate. unfold at_ in H. destruct (Nat.eq_dec r rb) as [->|].
      + rewrite Ke in H. injection H as <-. destruct Ha as [Ea|(_ & H1)]; [intros H; pose proof (i_next m I _ _ H); lia|exact (i_sum_apart m I _ _ H1)].
      + rewrite Ks in H by congruence. exact (i_sum_apart m I _ _ H).
    - intros r a' x y H O. unfold at_ in H. cbn [heap put]. destruct (Nat.eq_dec r rb) as [->|Hne].
      + rewrite Ke in H. injection H as <-. rewrite Nat.eqb_refl. apply Hg.
      + rewrite Ks in H by congruence. destruct (Nat.eqb_spec a a') as [<-|_].
        * exfalso. destruct (Same r H) as (F & L). destruct O as [O|O].
          -- assert (F' : first (S r) = first rb) by (apply (first_between r rb (S r)); [exact F|lia]). apply first_start in O. pose proof (first_le r). lia.
          -- destruct (Nat.eq_dec (S r) rb) as [E|]; [rewrite E, Ke in O; discriminate|]. rewrite Ks in O by (intros E; injection E; lia).
             destruct Ha as [->|(Hm & H1)]; [pose proof (i_next m I _ _ H); lia|]. destruct (first_mid rb Hm) as (P & F2). pose proof (first_le r).
             destruct (down_all m I (rb - 1 - S r) (rb - 1) a H1 ltac:(lia)) as (a1 & H2). replace (rb - 1 - (rb - 1 - S r)) with (S r) in H2 by lia. unfold at_ in H2. congruence.
        * apply (i_open m I); [exact H|]. destruct O as [O|O]; [now left|right]. destruct (Nat.eq_dec (S r) rb) as [E|]; [rewrite E, Ke in O; discriminate|]. now rewrite Ks in O by (intros E; injection E; lia).
    - intros a' x y H. rewrite Ks in H by discriminate. cbn [heap put]. destruct (Nat.eqb_spec a a') as [<-|_]; [|exact (i_sum m I _ x y H)].
      exfalso. destruct Ha as [->|(_ & H1)]; [pose proof (i_next m I _ _ H); lia|exact (i_sum_apart m I _ _ H1 H)].
  Qed.

  (* the final sum *)
  Lemma addrs_map m ks l : addrs m ks = Some l -> Forall2 (fun k a => addr m k = Some a) ks l.
  Proof.
    revert l. induction ks as [|k ks IH]; intros l H; cbn [addrs] in H; [injection H as <-; constructor|]. destruct (addr m k) eqn:E; [|discriminate]. destruct (addrs m ks); [|discriminate]. injection H as <-. constructor; auto.
  Qed.
  Lemma fold_gadd gs g x y : fold_left gadd gs g x y = cadd (g x y) (fold_left gadd gs (fun _ _ => c0) x y).
  Proof.
    revert g. induction gs as [|h gs IH]; intros g; cbn [fold_left]; [apply injective_projections; cbn; ring|]. rewrite (IH (gadd g h)), (IH (gadd _ h)). unfold gadd. apply injective_projections; cbn; ring.
  Qed.
  Lemma sum_cons g gs x y : sum_grids (g :: gs) x y = cadd (g x y) (sum_grids gs x y).
  Proof. unfold sum_grids. cbn [fold_left]. rewrite fold_gadd. unfold gadd. apply injective_projections; cbn; ring. Qed.
  Lemma sum_app gs hs x y : sum_grids (gs ++ hs) x y = cadd (sum_grids gs x y) (sum_grids hs x y).
  Proof. unfold sum_grids. rewrite fold_left_app. apply fold_gadd. Qed.
  Lemma tips_total m : (forall rb a x y, at_ m rb a -> S rb mod c = 0 \/ n <= S rb -> heap m a x y = so_far rb x y) -> forall k l, k * c < n + c -> addrs m (map (tip c n) (seq 0 k)) = Some l -> forall x y, sum_grids (map (heap m) l) x y = csum (Nat.min (k * c) n) (fun rb => part rb x y).
  Proof.
    intros I. induction k as [|k IH]; intros l Hk H x y; [cbn in H; injection H as <-; reflexivity|].
    apply addrs_map in H. rewrite seq_S, map_app in H. cbn [map Nat.add] in H. apply Forall2_app_inv_l in H as (l1 & l2 & H1 & H2 & ->).
    assert (E1 : addrs m (map (tip c n) (seq 0 k)) = Some l1).
    { clear -H1. revert l1 H1. induction (map (tip c n) (seq 0 k)) as [|q qs IHq]; intros l1 H1; inversion H1; subst; [reflexivity|]. cbn [addrs]. rewrite H2. now rewrite (IHq _ H4). }
    inversion H2 as [|q a qs l3 Ha H3 E2 E3]; subst. inversion H3; subst. clear H2 H3. rewrite map_app, sum_app. rewrite (IH l1 ltac:(nia) E1). cbn [map]. rewrite sum_cons. unfold sum_grids at 1. cbn [fold_left].
    assert (B : k * c < Nat.min (k * c + c) n) by nia. set (e := Nat.min (k * c + c) n - 1) in *. assert (Fe : first e = k * c). { unfold first. f_equal. symmetry. apply (Nat.div_unique e c k (e - k * c)); unfold e; nia. }
    unfold tip in Ha. fold e in Ha. rewrite (I e a x y Ha).
    2: { destruct (Nat.le_gt_cases n (S e)) as [L|L]; [now right|left]. replace (S e) with ((k + 1) * c) by (unfold e in *; nia). apply Nat.mod_mul. lia. }
    unfold so_far. rewrite Fe. rewrite (Nat.min_l (k * c) n) by nia. replace (Nat.min (S k * c) n) with (k * c + S (e - k * c)) by (unfold e; nia). rewrite (csum_split RC_laws). unfold from_to. apply injective_projections; cbn; ring.
  Qed.
  Lemma sum_step m g : inv m -> addr m (KSum 0 0) = None -> (forall x y, g x y = total x y) -> inv (put m (KSum 0 0) (next m) g).
  Proof.
    intros I Hnone Hg.
    assert (Ks : forall rb, addr (put m (KSum 0 0) (next m) g) (KGrid rb 0) = addr m (KGrid rb 0)) by reflexivity.
    assert (Ke : addr (put m (KSum 0 0) (next m) g) (KSum 0 0) = Some (next m)) by reflexivity.
    assert (Old : forall k a, addr m k = Some a -> Nat.eqb (next m) a = false). { intros k a H. apply Nat.eqb_neq. pose proof (i_next m I _ _ H). lia. }
    constructor; unfold at_; intros *; rewrite ?Ks.
    - rewrite put_addr. pose proof (put_next m (KSum 0 0) (next m) g (le_n _)). destruct (keqb_spec (KSum 0 0) k) as [<-|_]; intros H0; [injection H0 as <-; lia|]. pose proof (i_next m I _ _ H0). lia.
    - rewrite put_addr. destruct (keqb_spec (KSum 0 0) k) as [<-|_]; [now left|exact (i_known m I k a)].
    - intros H Hm. destruct (i_down m I _ _ H Hm) as (a' & H'). exists a'. exact H'.
    - apply (i_apart m I).
    - rewrite Ke. intros H H'. injection H' as <-. pose proof (i_next m I _ _ H). lia.
    - intros H O. cbn [heap put]. rewrite (Old _ _ H). apply (i_open m I); [exact H|]. exact O.
    - rewrite Ke. intros H. injection H as <-. cbn [heap put]. rewrite Nat.eqb_refl. apply Hg.
  Qed.
  Lemma find_sum : find_task dsk (KSum 0 0) = Some (TSum (map (tip c n) (seq 0 ((n + c - 1) / c)))).
  Proof. unfold dsk. rewrite find_other by (intros; discriminate). reflexivity. Qed.
  Lemma find_cases k : (exists rb, rb < n /\ k = KGrid rb 0) \/ k = KSum 0 0 \/ find_task dsk k = None.
  Proof.
    destruct k as [rb cb|i j].
    - destruct (Nat.eq_dec cb 0) as [->|]; [destruct (Nat.lt_ge_cases rb n)|]; [left; eauto| |]; right; right; unfold dsk; rewrite find_other; try reflexivity; intros rb' H' E; injection E; lia.
    - destruct (keqb_spec (KSum 0 0) (KSum i j)) as [<-|Ne]; [now right; left|right; right]. unfold dsk. rewrite find_other by (intros; discriminate). cbn [find_task]. destruct (keqb_spec (KSum 0 0) (KSum i j)); congruence.
  Qed.
  Lemma exec_inv m k : inv m -> inv (exec gridding in_place false dsk m k).
  Proof.
    intros I. unfold exec. destruct (find_cases k) as [(rb & Hrb & ->)|[->| ->]]; [| |exact I].
    - unfold dsk. rewrite (find_grid c n _ 0 rb) by lia. unfold done. destruct (addr m (KGrid rb 0)) eqn:En; [exact I|]. cbn [andb]. unfold last_of. destruct (Nat.eqb_spec (rb mod c) 0) as [E|E].
      + cbn [run_task]. apply grid_step; auto; [congruence|]. intros x y. symmetry. now apply so_far_start.
      + cbn [run_task]. destruct (addr m (KGrid (rb - 1) 0)) as [a|] eqn:El; [|exact I]. apply grid_step; auto.
        * destruct in_place; [right; split; [exact E|exact El]|now left].
        * intros _. exists a. exact El.
        * intros x y. rewrite Hadd, so_far_mid by exact E. f_equal. apply (i_open m I); [exact El|]. right. destruct (first_mid rb E) as (P & _). now replace (S (rb - 1)) with rb by lia.
    - rewrite find_sum. unfold done. destruct (addr m (KSum 0 0)) eqn:En; [exact I|]. cbn [andb run_task]. destruct (addrs m (map (tip c n) (seq 0 ((n + c - 1) / c)))) as [l|] eqn:El; [|exact I].
      destruct (count_up n c Hc) as (C1 & C2). apply sum_step; auto. intros x y. rewrite (tips_total m) with (k := (n + c - 1) / c); auto; [now rewrite Nat.min_r by exact C2|]. intros rb a x' y' Ha [O|O]; apply (i_open m I); auto; [now left|right].
      destruct (addr m (KGrid (S rb) 0)) eqn:E; [|reflexivity]. destruct (i_known m I _ _ E) as [?|(rb' & Hrb & K)]; [discriminate|injection K as K; lia].
  Qed.
  Lemma execute_inv sched m : inv m -> inv (fold_left (exec gridding in_place false dsk) sched m).
  Proof. revert m. induction sched as [|k sched IH]; intros m I; [exact I|]. cbn [fold_left]. apply IH. now apply exec_inv. Qed.
  Lemma any_schedule sched g : value (execute gridding in_place false dsk sched) (KSum 0 0) = Some g -> forall x y, g x y = total x y.
  Proof.
    unfold value, execute. pose proof (execute_inv sched start_mem start_inv) as I. destruct (addr _ (KSum 0 0)) as [a|] eqn:E; [|discriminate]. intros H x y. injection H as <-. exact (i_sum _ I a x y E).
  Qed.

  (* running every task in the order of the graph finishes from any state reached *)
  Lemma exec_keeps m k k' a : addr m k' = Some a -> exists a', addr (exec gridding in_place false dsk m k) k' = Some a'.
  Proof.
    intros H. unfold exec. destruct (find_task dsk k) as [t|]; [|eauto]. destruct (done m k && negb false); [eauto|]. unfold run_task.
    assert (X : forall q b g, exists a', addr (put m q b g) k' = Some a') by (intros q b g; rewrite put_addr; destruct (keqb q k'); eauto).
    destruct t as [b i v w [l|]|ks]; [destruct (addr m l); eauto|eauto|destruct (addrs m ks); eauto].
  Qed.
  Lemma exec_grid_done m rb : rb < n -> (rb mod c <> 0 -> exists a, at_ m (rb - 1) a) -> exists a, at_ (exec gridding in_place false dsk m (KGrid rb 0)) rb a.
  Proof.
    intros Hrb Hl. unfold exec, dsk. rewrite (find_grid c n _ 0 rb) by lia. unfold done, at_. destruct (addr m (KGrid rb 0)) eqn:En; [cbn; eauto|]. cbn [andb]. unfold last_of.
    assert (X : forall b g, exists a, addr (put m (KGrid rb 0) b g) (KGrid rb 0) = Some a) by (intros b g; rewrite put_addr; destruct (keqb_spec (KGrid rb 0) (KGrid rb 0)); [eauto|congruence]).
    destruct (Nat.eqb_spec (rb mod c) 0) as [E|E]; cbn [run_task]; [apply X|]. destruct (Hl E) as (a & Ha). unfold at_ in Ha. rewrite Ha. apply X.
  Qed.
  Lemma all_grids k : k <= n -> forall m, forall rb, rb < k -> exists a, at_ (fold_left (exec gridding in_place false dsk) (map (fun rb => KGrid rb 0) (seq 0 k)) m) rb a.
  Proof.
    induction k as [|k IH]; intros Hk m rb Hrb; [lia|]. rewrite seq_S, map_app, fold_left_app. cbn [map fold_left Nat.add]. specialize (IH ltac:(lia) m).
    destruct (Nat.eq_dec rb k) as [->|].
    - apply exec_grid_done; [lia|]. intros E. destruct (first_mid k E) as (P & _). apply IH. lia.
    - destruct (IH rb ltac:(lia)) as (a & Ha). exact (exec_keeps _ _ _ _ Ha).
  Qed.
  Lemma addrs_total m ks : (forall k, In k ks -> exists a, addr m k = Some a) -> exists l, addrs m ks = Some l.
  Proof. induction ks as [|k ks IH]; intros H; cbn [addrs]; [eauto|]. destruct (H k (or_introl eq_refl)) as (a & ->). destruct IH as (l & ->); [intros; apply H; now right|]. eauto. Qed.
  Lemma completes sched : exists g, value (execute gridding in_place false dsk (sched ++ map fst dsk)) (KSum 0 0) = Some g.
  Proof.
    unfold execute. rewrite fold_left_app. set (m0 := fold_left _ sched start_mem). replace (map fst dsk) with (map (fun rb => KGrid rb 0) (seq 0 n) ++ [KSum 0 0]) by (unfold dsk; rewrite map_app, map_map; reflexivity).
    rewrite fold_left_app. cbn [fold_left]. set (m := fold_left _ _ m0). assert (A : forall rb, rb < n -> exists a, at_ m rb a) by (intros rb Hrb; apply (all_grids n (le_n _)); exact Hrb).
    unfold value, exec. rewrite find_sum. unfold done. destruct (addr m (KSum 0 0)) eqn:En; [cbn [andb negb]; rewrite En; eauto|]. cbn [andb run_task].
    destruct (addrs_total m (map (tip c n) (seq 0 ((n + c - 1) / c)))) as (l & ->).
    - intros k Hk. apply in_map_iff in Hk as (i & <- & Hi). unfold tip. apply A. lia.
    - rewrite put_addr. cbn. eauto.
  Qed.

  (* a library that makes new grids: running tasks again does no harm *)
  Record pure_inv (m : mem) : Prop := {
    p_next : forall k a, addr m k = Some a -> a < next m;
    p_grid : forall rb a x y, at_ m rb a -> heap m a x y = so_far rb x y;
    p_sum : forall a x y, addr m (KSum 0 0) = Some a -> heap m a x y = total x y
  }.
  Lemma pure_put m k g : pure_inv m -> (forall rb x y, k = KGrid rb 0 -> g x y = so_far rb x y) -> (forall x y, k = KSum 0 0 -> g x y = total x y) -> pure_inv (put m k (next m) g).
  Proof.
    intros I H1 H2. assert (Old : forall q a, addr m q = Some a -> Nat.eqb (next m) a = false). { intros q a H. apply Nat.eqb_neq. pose proof (p_next m I _ _ H). lia. }
    constructor; unfold at_; intros *; rewrite put_addr; cbn [heap put next]; rewrite ?Nat.eqb_refl.
    - destruct (keqb k k0); intros H; [injection H as <-; lia|]. pose proof (p_next m I _ _ H). lia.
    - destruct (keqb_spec k (KGrid rb 0)) as [E|_]; intros H; [injection H as <-; rewrite Nat.eqb_refl; now apply H1|]. rewrite (Old _ _ H). exact (p_grid m I _ _ x y H).
    - destruct (keqb_spec k (KSum 0 0)) as [E|_]; intros H; [injection H as <-; rewrite Nat.eqb_refl; now apply H2|]. rewrite (Old _ _ H). exact (p_sum m I _ x y H).
  Qed.
  Lemma pure_exec again m k : pure_inv m -> pure_inv (exec gridding false again dsk m k).
  Proof.
    intros I. unfold exec. destruct (find_cases k) as [(rb & Hrb & ->)|[->| ->]]; [| |exact I].
    - unfold dsk. rewrite (find_grid c n _ 0 rb) by lia. destruct (done m (KGrid rb 0) && negb again); [exact I|]. unfold last_of. destruct (Nat.eqb_spec (rb mod c) 0) as [E|E]; cbn [run_task].
      + apply pure_put; auto; [|intros; discriminate]. intros rb' x y H. injection H as <-. symmetry. now apply so_far_start.
      + destruct (addr m (KGrid (rb - 1) 0)) as [a|] eqn:El; [|exact I]. apply pure_put; auto; [|intros; discriminate]. intros rb' x y H. injection H as <-. rewrite Hadd, so_far_mid by exact E. f_equal. exact (p_grid m I _ _ x y El).
    - rewrite find_sum. destruct (done m (KSum 0 0) && negb again); [exact I|]. cbn [run_task]. destruct (addrs m (map (tip c n) (seq 0 ((n + c - 1) / c)))) as [l|] eqn:El; [|exact I].
      destruct (count_up n c Hc) as (C1 & C2). apply pure_put; auto; [intros; discriminate|]. intros x y _. rewrite (tips_total m) with (k := (n + c - 1) / c); auto; [now rewrite Nat.min_r by exact C2|].
      intros rb a x' y' Ha _. exact (p_grid m I _ _ x' y' Ha).
  Qed.
  Lemma pure_again sched again g : value (execute gridding false again dsk sched) (KSum 0 0) = Some g -> forall x y, g x y = total x y.
  Proof.
    unfold value, execute. assert (I : pure_inv (fold_left (exec gridding false again dsk) sched start_mem)).
    { assert (I0 : pure_inv start_mem) by (constructor; unfold at_; cbn; discriminate). revert I0. generalize start_mem. induction sched as [|k sched IH]; intros m I0; [exact I0|]. cbn [fold_left]. apply IH. now apply pure_exec. }
    destruct (addr _ (KSum 0 0)) as [a|] eqn:E; [|discriminate]. intros H x y. injection H as <-. exact (p_sum _ I a x y E).
  Qed.
End Run.

(* every number of row blocks and streams *)
Lemma graph_schedule gridding in_place n s dsk sched g : adds_in gridding -> 0 < n -> (1 <= s)%Z -> graph n s = Ok dsk ->
  value (execute gridding in_place false dsk sched) (KSum 0 0) = Some g -> forall x y, g x y = csum n (fun rb => gridding rb rb (rb, 0) (rb, 0) None x y).
Proof. intros Ha Hn Hs E. destruct (graph_ok n s Hn Hs) as (c & Hc & E'). rewrite E in E'. injection E' as ->. intros H. exact (any_schedule gridding Ha in_place c n Hc Hn sched g H). Qed.
Lemma graph_completes gridding in_place n s dsk sched : 0 < n -> (1 <= s)%Z -> graph n s = Ok dsk -> exists g, value (execute gridding in_place false dsk (sched ++ map fst dsk)) (KSum 0 0) = Some g.
Proof. intros Hn Hs E. destruct (graph_ok n s Hn Hs) as (c & Hc & E'). rewrite E in E'. injection E' as ->. exact (completes gridding in_place c n Hc Hn sched). Qed.
Lemma graph_again gridding again n s dsk sched g : adds_in gridding -> 0 < n -> (1 <= s)%Z -> graph n s = Ok dsk ->
  value (execute gridding false again dsk sched) (KSum 0 0) = Some g -> forall x y, g x y = csum n (fun rb => gridding rb rb (rb, 0) (rb, 0) None x y).
Proof. intros Ha Hn Hs E. destruct (graph_ok n s Hn Hs) as (c & Hc & E'). rewrite E in E'. injection E' as ->. intros H. exact (pure_again gridding Ha c n Hc Hn sched again g H). Qed.
Lemma graph_total n s : 0 < n -> (1 <= s)%Z -> exists dsk, graph n s = Ok dsk.
Proof. intros Hn Hs. destruct (graph_ok n s Hn Hs) as (c & _ & E). eauto. Qed.
Lemma graph_lengths n s a b : 0 < n -> (1 <= s)%Z -> stream_dict n s = Ok a -> final_dict n s = Ok b -> length a = stream_len n /\ length b = final_len /\ NoDup (map fst (a ++ b)).
Proof.
  intros Hn Hs E1 E2. destruct (graph_form n s Hn Hs) as (c & _ & _ & F1 & F2). rewrite E1 in F1. rewrite E2 in F2. injection F1 as ->. injection F2 as ->. rewrite map_length, seq_length. split; [reflexivity|]. split; [reflexivity|].
  rewrite map_app, map_map. eapply Permutation_NoDup; [apply Permutation_app_comm|]. cbn [map fst app]. constructor.
  - intros H. apply in_map_iff in H as (rb & E & _). discriminate.
  - apply FinFun.Injective_map_NoDup; [|apply seq_NoDup]. intros p q E. unfold task_of in E. cbn [fst] in E. congruence.
Qed.
(* no stream holds more than its share *)
Lemma graph_errors n : graph n 0 = Raise ZeroDivision /\ (forall s, (1 <= s)%Z -> graph 0 s = Raise ValueError).
Proof.
  split; [reflexivity|]. intros s Hs. unfold graph, stream_dict, row_block_chunks. destruct (Z.eqb_spec s 0); [lia|]. cbn [bind]. rewrite (Z.div_small (Z.of_nat 0 + s - 1) s) by lia. reflexivity.
Qed.
Lemma negative_streams n s : (s < 0)%Z -> (1 - s < Z.of_nat n)%Z -> graph n s = Ok [(KSum 0 0, TSum [])].
Proof.
  intros Hs Hn. unfold graph, stream_dict, final_dict, row_block_chunks. destruct (Z.eqb_spec s 0); [lia|]. cbn [bind]. set (q := ((Z.of_nat n + s - 1) / s)%Z).
  assert (Hq : (q < 0)%Z). { unfold q. pose proof (Z.div_mod (Z.of_nat n + s - 1) s ltac:(lia)). pose proof (Z.mod_neg_bound (Z.of_nat n + s - 1) s Hs). nia. }
  unfold range_step. destruct (Z.eqb_spec q 0); [lia|]. destruct (Z.ltb_spec q 0); [|lia]. reflexivity.
Qed.

(* rows *)
Section Rows.
  Variables (N : nifty) (gc : config) (wmin wmax : R) (d : data).
  Notation bg := (block_grid N gc wmin wmax d).
  Lemma first_row_S rows rb : rb < length rows -> first_row rows (S rb) = first_row rows rb + row_count rows rb.
  Proof.
    unfold first_row, row_count. revert rows. induction rb as [|rb IH]; intros [|n rows] H; cbn [length] in H; try lia.
    - cbn. lia.
    - specialize (IH rows ltac:(lia)). rewrite !(firstn_cons _ n rows). cbn [nth]. change (list_sum (n :: firstn (S rb) rows)) with (n + list_sum (firstn (S rb) rows)). change (list_sum (n :: firstn rb rows)) with (n + list_sum (firstn rb rows)). lia.
  Qed.
  Lemma blocks_total rows corr x y : adds_rows N -> forall k, k <= length rows ->
    csum k (fun rb => bg (first_row rows rb) (row_count rows rb) corr None x y) = bg 0 (first_row rows k) corr None x y.
  Proof.
    intros A. induction k as [|k IH]; intros Hk; [symmetry; apply (A gc wmin wmax (d_nchan d) (d_freq d) (d_uvw d) (fun r c => d_flags d r c corr) (fun r c => d_vis d r c corr) (fun r c => d_weights d r c corr) x y)|]. cbn [csum]. rewrite IH by lia. rewrite first_row_S by lia. destruct (A gc wmin wmax (d_nchan d) (d_freq d) (d_uvw d) (fun r c => d_flags d r c corr) (fun r c => d_vis d r c corr) (fun r c => d_weights d r c corr) x y) as (_ & E). symmetry. exact (E _ _).
  Qed.
  Lemma first_row_all rows : first_row rows (length rows) = list_sum rows.
  Proof. unfold first_row. now rewrite firstn_all. Qed.
  Lemma blockwise_total rows corr x y : blockwise_grid N gc wmin wmax d rows corr x y = csum (length rows) (fun rb => bg (first_row rows rb) (row_count rows rb) corr None x y).
  Proof.
    unfold blockwise_grid. induction (length rows) as [|k IH]; [reflexivity|]. rewrite seq_S, map_app, sum_app, IH. cbn [csum map Nat.add]. rewrite sum_cons. unfold sum_grids. cbn [fold_left]. f_equal. apply injective_projections; cbn; ring.
  Qed.
  Lemma result_whole freq_chunks rows streams in_place corr g : accumulates N -> adds_rows N -> (forall s, streams = Some s -> (1 <= s)%Z) ->
    grid_result N gc wmin wmax d freq_chunks rows streams in_place corr (Ok g) -> forall x y, g x y = gridded N gc wmin wmax (d_nchan d) (d_freq d) (list_sum rows) (d_uvw d) (fun r c => d_flags d r c corr) (fun r c => d_vis d r c corr) (fun r c => d_weights d r c corr) x y.
  Proof.
    intros Ac A Hs H x y. change (g x y = bg 0 (list_sum rows) corr None x y). rewrite <- first_row_all, <- blocks_total by auto. inversion H as [| |? ? ? ? Hg|s dsk sched ? Hf Es Hg Hv]; subst.
    - apply blockwise_total.
    - specialize (Hs s eq_refl). destruct (Nat.eq_dec (length rows) 0) as [E0|]; [rewrite E0, (proj2 (graph_errors 0)) in Hg by exact Hs; discriminate|].
      rewrite (graph_schedule (stream_gridding N gc wmin wmax d rows corr) in_place (length rows) s dsk sched g); [|intros b i v w g0 x' y'; apply Ac|lia|exact Hs|exact Hg|exact Hv].
      apply csum_ext. intros rb _. reflexivity.
  Qed.
  Lemma degrid_whole freq_chunks rows ncx ncy grid corr r c v : row_by_row N -> r < list_sum rows -> c < d_nchan d -> degrid N gc wmin wmax d freq_chunks rows ncx ncy grid corr r c = Ok v ->
    v = degridded N gc wmin wmax (d_nchan d) (d_freq d) (list_sum rows) (d_uvw d) (fun r c => d_flags d r c corr) (fun x y => grid x y corr) r c.
  Proof.
    intros H Hr Hcc. unfold degrid. destruct (negb (length freq_chunks =? 1)); [discriminate|]. destruct (negb _); [discriminate|]. destruct (locate 0 rows r) as [r0 n] eqn:L. intros E. injection E as <-.
    destruct (locate_spec rows 0 r ltac:(lia) r0 n L) as (B & _).
    assert (Er : r0 + n <= list_sum rows).
    { clear -L Hr. enough (G : forall start, start <= r < start + list_sum rows -> locate start rows r = (r0, n) -> r0 + n <= start + list_sum rows) by (apply (G 0); [lia|exact L]).
      clear. induction rows as [|k rest IH]; intros start Hr E; cbn [locate] in E; [cbn in Hr; lia|]. change (list_sum (k :: rest)) with (k + list_sum rest) in *.
      destruct (Nat.ltb_spec r (start + k)); [injection E as <- <-; lia|]. specialize (IH (start + k) ltac:(lia) E). lia. }
    pose proof (H gc wmin wmax (d_nchan d) (d_freq d) (d_uvw d) (fun r c => d_flags d r c corr) (fun x y => grid x y corr) r0 n (list_sum rows) (r - r0) c ltac:(lia) ltac:(lia) Hcc) as E.
    replace (r0 + (r - r0)) with r in E by lia. rewrite <- E. reflexivity.
  Qed.
End Rows.

(* the exact library *)
Lemma exact_accumulates : accumulates exact.
Proof. intros b gc i n m vis g w x y. reflexivity. Qed.
Lemma exact_adds : adds_rows exact.
Proof.
  intros gc wmin wmax nchan freq uvw flags vis w x y. split; [reflexivity|]. intros n m. unfold gridded. cbn [ms2grid_c exact]. rewrite (csum_split RC_laws). apply (f_equal2 cadd eq_refl). apply csum_ext. intros r _. apply csum_ext. intros c _.
  reflexivity.
Qed.
Lemma exact_rows : row_by_row exact.
Proof. intros gc wmin wmax nchan freq uvw flags grid r0 n m r c _ _ _. reflexivity. Qed.


Theorem degrid_accepted N gc wmin wmax d freq_chunks rows ncx ncy grid corr r c :
  ((exists v, degrid N gc wmin wmax d freq_chunks rows ncx ncy grid corr r c = Ok v) <-> length freq_chunks = 1 /\ ncx = 1 /\ ncy = 1) /\
  (length freq_chunks <> 1 -> degrid N gc wmin wmax d freq_chunks rows ncx ncy grid corr r c = Raise ValueError) /\
  (length freq_chunks = 1 -> ncx <> 1 \/ ncy <> 1 -> degrid N gc wmin wmax d freq_chunks rows ncx ncy grid corr r c = Raise AssertionError).
Proof.
  unfold degrid. destruct (Nat.eqb_spec (length freq_chunks) 1) as [F|F]; cbn [negb].
  2: { split; [split; [intros (v & E); discriminate E|tauto]|]. split; [reflexivity|tauto]. }
  destruct (Nat.eqb_spec ncx 1) as [X|X], (Nat.eqb_spec ncy 1) as [Y|Y]; cbn [negb andb].
  1: { destruct (locate 0 rows r) as [r0 n]. split; [split; [auto|eauto]|]. split; [tauto|]. intros _ [H|H]; tauto. }
  all: split; [split; [intros (v & E); discriminate E|tauto]|]; split; [tauto|reflexivity].
Qed.
