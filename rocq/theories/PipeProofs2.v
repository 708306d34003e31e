(* Proofs about the prediction script: sky model, times, correlations. *)
From Coq Require Import Reals String Lia Permutation Lra.
From Verif Require Import Prelude PreludeFacts CRing CplxR RimeModel RimeSpec RimeProofs CoordModel CoordSpec CoordProofs SrcModel SrcSpec SrcProofs SrcProofs2
  CohModel CohSpec CohProofs CohProofs2 CohProofs3 PredictModel PredictSpec PredictProofs BeamModel BeamSpec BeamProofs BeamProofs3 DftModel PipeModel PipeSpec PipeProofs.
Open Scope nat_scope.
Open Scope list_scope.

(* ---------- parse_sky_model ---------- *)
Definition gau (s : source) : bool := String.eqb (lower (s_type s)) "gau".
Lemma parse_ok f0 sky : Forall known_source sky ->
  parse_sky_model f0 sky = Ok (map (parse_row f0) (filter (fun s => negb (gau s)) sky), map (parse_row f0) (filter gau sky)).
Proof.
  induction 1 as [|s r Ks F IH]; [reflexivity |]. cbn [parse_sky_model filter map]. rewrite IH. change (String.eqb (lower (s_type s)) "gau") with (gau s).
  assert (X : gau s = true <-> lower (s_type s) = "gau"%string) by apply String.eqb_eq.
  destruct (gau s); cbn [bind negb map]; [reflexivity |].
  assert (N : lower (s_type s) <> "gau"%string) by (intro Y; apply X in Y; discriminate).
  destruct Ks as [G|P]; [contradiction |]. unfold is_point in P. rewrite P. reflexivity.
Qed.
Lemma parse_unknown f0 sky : Exists (fun s => ~ known_source s) sky -> parse_sky_model f0 sky = Raise ValueError.
Proof.
  induction 1 as [s r U | s r E IH]; cbn [parse_sky_model].
  - destruct (String.eqb_spec (lower (s_type s)) "gau") as [G|G]; [exfalso; apply U; left; exact G |].
    destruct (String.eqb_spec (lower (s_type s)) "pnt") as [P|P]; [exfalso; apply U; right; exact P | reflexivity].
  - rewrite IH. destruct (String.eqb _ _); [reflexivity |]. destruct (String.eqb _ _); reflexivity.
Qed.
Lemma cadd0r (x : RC) : cadd x c0 = x.
Proof. destruct x as (a, b). cbn. f_equal; ring. Qed.
Lemma cadd0l (x : RC) : cadd c0 x = x.
Proof. destruct x as (a, b). cbn. f_equal; ring. Qed.
Lemma caddA (x y z : RC) : cadd x (cadd y z) = cadd (cadd x y) z.
Proof. destruct x, y, z. cbn. f_equal; ring. Qed.
Lemma caddC (x y : RC) : cadd x y = cadd y x.
Proof. destruct x, y. cbn. f_equal; ring. Qed.
Lemma sky_split {A} (p : A -> bool) (f : A -> RC) l : sky_sum f l = cadd (sky_sum f (filter (fun s => negb (p s)) l)) (sky_sum f (filter p l)).
Proof.
  induction l as [|s r IH]; [cbn; rewrite Rplus_0_r; reflexivity |]. cbn [sky_sum fold_right filter]. fold (sky_sum f r). rewrite IH.
  destruct (p s); cbn [negb sky_sum fold_right]; fold (sky_sum f (filter p r)); fold (sky_sum f (filter (fun s => negb (p s)) r)).
  - rewrite caddA, (caddC (f s)), <- caddA. reflexivity.
  - rewrite caddA. reflexivity.
Qed.
Lemma sky_index {A} (f : A -> RC) d l : csum (K := RC) (List.length l) (fun i => f (nth i l d)) = sky_sum f l.
Proof.
  induction l as [|s r IH]; [reflexivity |]. cbn [List.length].
  change (S (List.length r)) with (1 + List.length r). rewrite (csum_split RC_laws). cbn [sky_sum fold_right]. fold (sky_sum f r). rewrite <- IH.
  f_equal. cbn [csum]. rewrite cadd0l. reflexivity.
Qed.
Lemma sky_perm {A} (f : A -> RC) l l' : Permutation l l' -> sky_sum f l = sky_sum f l'.
Proof.
  induction 1; cbn [sky_sum fold_right]; auto.
  - f_equal. exact IHPermutation.
  - rewrite !caddA, (caddC (f y)). reflexivity.
  - congruence.
Qed.

(* ---------- times ---------- *)
Lemma insert_in x y l : In y (insert_unique x l) <-> y = x \/ In y l.
Proof.
  induction l as [|z r IH]; cbn [insert_unique]; [cbn; intuition |].
  destruct (Rlt_dec x z); [cbn; intuition |]. destruct (Req_EM_T x z) as [->|N]; [cbn; intuition |]. cbn [In]. rewrite IH. intuition.
Qed.
Lemma unique_in n time y : In y (unique_times n time) <-> exists r, r < n /\ time r = y.
Proof.
  unfold unique_times. assert (G : forall l, In y (fold_right insert_unique [] l) <-> In y l).
  { induction l as [|x l IH]; [reflexivity |]. cbn [fold_right In]. rewrite insert_in, IH. intuition. }
  rewrite G, in_map_iff. split.
  - intros (r & E & I). apply in_seq in I. exists r. split; [lia | exact E].
  - intros (r & H & E). exists r. split; [exact E | apply in_seq; lia].
Qed.
Lemma place_nth x l : In x l -> place x l < List.length l /\ nth (place x l) l 0%R = x.
Proof.
  induction l as [|y r IH]; intros H; [destruct H |]. cbn [place]. destruct (Req_EM_T x y) as [->|N]; [cbn; split; [lia | reflexivity] |].
  destruct H as [H|H]; [congruence |]. destruct (IH H). cbn. split; [lia | assumption].
Qed.
Lemma place_min n time : 0 < n -> is_min n (fun r => Z.of_nat (place (time r) (unique_times n time))) 0%Z.
Proof.
  intros Hn. split; [|intros; lia].
  destruct (unique_times n time) as [|x l] eqn:E.
  - exfalso. assert (X : In (time 0) (unique_times n time)) by (apply unique_in; exists 0; auto). rewrite E in X. destruct X.
  - assert (X : In x (unique_times n time)) by (rewrite E; left; reflexivity). apply unique_in in X. destruct X as (r & Hr & Et).
    exists r. split; [exact Hr |]. rewrite Et. cbn [place]. destruct (Req_EM_T x x); [reflexivity | contradiction].
Qed.

(* ---------- correlations ---------- *)
Definition codes (lin : bool) : list Z := if lin then linear_types else circular_types.
Definition code_names (lin : bool) : list string := if lin then LINEAR else CIRCULAR.
Lemma code_cases lin z : In z (codes lin) -> exists n, casa_name z = Some n /\ In n (code_names lin).
Proof.
  destruct lin; intros [<-|[<-|[<-|[<-|[]]]]]; eexists; (split; [reflexivity | cbn; tauto]).
Qed.
Lemma code_inj lin z z' : In z (codes lin) -> In z' (codes lin) -> casa_name z = casa_name z' -> z = z'.
Proof.
  destruct lin; intros [<-|[<-|[<-|[<-|[]]]]] [<-|[<-|[<-|[<-|[]]]]] E; try reflexivity; vm_compute in E; discriminate.
Qed.
Definition dims (corrs : nat) : list nat := if Nat.eqb corrs 4 then [2; 2] else [corrs].
Definition pos (corrs c : nat) : list nat := if Nat.eqb corrs 4 then [c / 2; c mod 2] else [c].

Lemma sub_leaf z idx : sub (SInt z) idx = match idx with [] => Some (SInt z) | _ => None end.
Proof. destruct idx; reflexivity. Qed.

Section Types.
  Variables (corrs : nat) (types : list Z) (lin : bool).
  Hypothesis Hc : corrs = 1 \/ corrs = 2 \/ corrs = 4.
  Hypothesis Hlen : List.length types = corrs.
  Hypothesis Nd : NoDup types.
  Hypothesis Inc : incl types (codes lin).

  Lemma schema_ok : exists sc, corr_schema corrs types = Ok sc /\ boxed sc = sc /\ rect sc (dims corrs) /\
    (forall idx n, at_ sc idx n <-> exists c, c < corrs /\ idx = pos corrs c /\ casa_name (nth c types 0%Z) = Some n).
  Proof.
    assert (Lf : forall z, In z types -> exists n, casa_name z = Some n) by (intros z I; destruct (code_cases lin z (Inc z I)) as (n & E & _); eauto).
    destruct Hc as [-> | [-> | ->]].
    - destruct types as [|a [|b l]]; try discriminate. eexists. split; [reflexivity |]. split; [reflexivity |]. split.
      + exists [SInt a]. cbn. repeat split; auto. repeat constructor. apply Lf. left. reflexivity.
      + intros idx n. unfold at_. split.
        * intros (e & Es & En). destruct idx as [|i idx]; [injection Es as <-; discriminate |]. cbn in Es.
          destruct i as [|i]; [|destruct i; discriminate]. cbn in Es. rewrite sub_leaf in Es. destruct idx; [|discriminate]. injection Es as <-.
          exists 0. repeat split; auto.
        * intros (c & Hcc & -> & E). assert (c = 0) as -> by lia. exists (SInt a). split; [reflexivity | exact E].
    - destruct types as [|a [|b [|d l]]]; try discriminate. eexists. split; [reflexivity |]. split; [reflexivity |]. split.
      + exists [SInt a; SInt b]. cbn. repeat split; auto. repeat constructor; apply Lf; cbn; auto.
      + intros idx n. unfold at_. split.
        * intros (e & Es & En). destruct idx as [|i idx]; [injection Es as <-; discriminate |]. cbn in Es.
          destruct i as [|[|i]]; [| |destruct i; discriminate]; cbn in Es; rewrite sub_leaf in Es; (destruct idx; [|discriminate]); injection Es as <-;
            [exists 0 | exists 1]; repeat split; auto.
        * intros (c & Hcc & -> & E). destruct c as [|[|c]]; [| |lia]; [exists (SInt a) | exists (SInt b)]; (split; [reflexivity | exact E]).
    - destruct types as [|a [|b [|d [|e [|x l]]]]]; try discriminate. eexists. split; [reflexivity |]. split; [reflexivity |]. split.
      + exists [SSeq [SInt a; SInt b]; SSeq [SInt d; SInt e]]. cbn. repeat split; auto. repeat constructor.
        * exists [SInt a; SInt b]. repeat split; auto. repeat constructor; apply Lf; cbn; auto.
        * exists [SInt d; SInt e]. repeat split; auto. repeat constructor; apply Lf; cbn; auto.
      + intros idx n. unfold at_. split.
        * intros (e' & Es & En). destruct idx as [|i idx]; [injection Es as <-; discriminate |]. cbn in Es.
          destruct i as [|[|i]]; [| |destruct i; discriminate]; cbn in Es; (destruct idx as [|j idx]; [injection Es as <-; discriminate |]); cbn in Es;
            (destruct j as [|[|j]]; [| |destruct j; discriminate]); cbn in Es; rewrite sub_leaf in Es; (destruct idx; [|discriminate]); injection Es as <-;
            [exists 0 | exists 1 | exists 2 | exists 3]; repeat split; auto; lia.
        * intros (c & Hcc & -> & E). destruct c as [|[|[|[|c]]]]; [| | | |lia];
            [exists (SInt a) | exists (SInt b) | exists (SInt d) | exists (SInt e)]; (split; [reflexivity | exact E]).
  Qed.
  Lemma pos_inj c c' : c < corrs -> c' < corrs -> pos corrs c = pos corrs c' -> c = c'.
  Proof.
    unfold pos. intros H H'. destruct (Nat.eqb corrs 4); intros E; [|congruence].
    assert (E1 : c / 2 = c' / 2) by exact (f_equal (fun l => nth 0 l 0) E). assert (E2 : c mod 2 = c' mod 2) by exact (f_equal (fun l => nth 1 l 0) E).
    pose proof (Nat.div_mod c 2). pose proof (Nat.div_mod c' 2). lia.
  Qed.
  Lemma nth_type c : c < corrs -> In (nth c types 0%Z) types.
  Proof. intros H. apply nth_In. rewrite Hlen. exact H. Qed.

  Definition stokes_list : sch := SSeq [SStr "I"; SStr "Q"; SStr "U"; SStr "V"].
  Lemma stokes_at idx n : at_ stokes_list idx n <-> exists k, idx = [k] /\ nth_error STOKES k = Some n.
  Proof.
    unfold at_, stokes_list. split.
    - intros (e & Es & En). destruct idx as [|i idx]; [injection Es as <-; discriminate |]. cbn in Es.
      do 4 (destruct i as [|i]; [destruct idx; [injection Es as <-; eexists; split; [reflexivity | exact En] | discriminate] |]). destruct i; discriminate.
    - intros (k & -> & E). do 4 (destruct k as [|k]; [eexists; split; [reflexivity | exact E] |]). destruct k; discriminate.
  Qed.
  Lemma stokes_rect : rect stokes_list [4].
  Proof. eexists. split; [reflexivity |]. cbn. repeat split; auto. repeat constructor; eexists; reflexivity. Qed.
  Lemma stokes_distinct : distinct stokes_list.
  Proof.
    intros i j s Hi Hj. apply stokes_at in Hi, Hj. destruct Hi as (k & -> & E), Hj as (k' & -> & E'). f_equal.
    do 4 (destruct k as [|k]; [do 4 (destruct k' as [|k']; [first [reflexivity | cbn in E, E'; congruence] |]); destruct k'; discriminate |]). destruct k; discriminate.
  Qed.
  Lemma stokes_all : all_of stokes_list STOKES.
  Proof.
    intros s [<-|[<-|[<-|[<-|[]]]]]; [exists [0] | exists [1] | exists [2] | exists [3]]; apply stokes_at; eexists; (split; [reflexivity | reflexivity]).
  Qed.

  Lemma brightness_ok half g nsrc nchan (st : arr3 R) : exists sc b, corr_schema corrs types = Ok sc /\
    convert (K := RR) half g {| nd_shape := [nsrc; nchan; 4]; nd_at := fun idx => ((st (nth 0 idx 0) (nth 1 idx 0) (nth 2 idx 0), 0%R) : cx RR) |} stokes_list sc = Ok b /\
    nd_shape b = [nsrc; nchan] ++ dims corrs /\
    forall s f c, c < corrs -> correlation (st s f 0) (st s f 1) (st s f 2) (st s f 3) (nth c types 0%Z) = Some (nd_at b ([s; f] ++ pos corrs c)).
  Proof.
    destruct schema_ok as (sc & E & Bx & Rc & At). exists sc.
    assert (Ds : distinct (boxed sc)).
    { rewrite Bx. intros i j n Hi Hj. apply At in Hi, Hj. destruct Hi as (c & H1 & -> & E1), Hj as (c' & H2 & -> & E2). f_equal.
      assert (Z : nth c types 0%Z = nth c' types 0%Z) by (apply (code_inj lin); [apply Inc; now apply nth_type | apply Inc; now apply nth_type | congruence]).
      eapply NoDup_nth in Z; eauto; rewrite Hlen; assumption. }
    assert (On : only (boxed sc) (code_names lin)).
    { rewrite Bx. intros i n Hi. apply At in Hi. destruct Hi as (c & H1 & -> & E1).
      destruct (code_cases lin _ (Inc _ (nth_type c H1))) as (n' & E2 & I). congruence. }
    set (a := {| nd_shape := [nsrc; nchan; 4]; nd_at := fun idx => ((st (nth 0 idx 0) (nth 1 idx 0) (nth 2 idx 0), 0%R) : cx RR) |}).
    assert (Cy : forall s f, carries a [s; f] (boxed stokes_list) (stokes_of (K := RR) (st s f 0) (st s f 1) (st s f 2) (st s f 3))).
    { intros s f idx n x A V. change (boxed stokes_list) with stokes_list in A. apply stokes_at in A. destruct A as (k & -> & Ek).
      do 4 (destruct k as [|k]; [injection Ek as <-; injection V as <-; reflexivity |]). destruct k; discriminate. }
    assert (Rs : rect (boxed sc) (dims corrs)) by (rewrite Bx; exact Rc).
    destruct lin.
    - destruct (stokes_to_linear RR_laws half stokes_list sc [nsrc; nchan] [4] (dims corrs) a g stokes_rect stokes_distinct Rs Ds eq_refl stokes_all On)
        as (b & Eb & Sh & V). exists b. split; [exact E |]. split; [exact Eb |]. split; [exact Sh |]. intros s f c H.
      destruct (code_cases true _ (Inc _ (nth_type c H))) as (n & En & In_). unfold correlation. rewrite En.
      assert (X : exists x, linear_of (K := RR) (st s f 0) (st s f 1) (st s f 2) (st s f 3) n = Some x)
        by (cbn in In_; destruct In_ as [<-|[<-|[<-|[<-|[]]]]]; eexists; reflexivity).
      destruct X as (x & X). rewrite X. f_equal. symmetry. apply (V [s; f] _ _ _ _ (Cy s f) (pos corrs c) n); [|exact X].
      rewrite Bx. apply At. exists c. auto.
    - destruct (stokes_to_circular RR_laws half stokes_list sc [nsrc; nchan] [4] (dims corrs) a g stokes_rect stokes_distinct Rs Ds eq_refl stokes_all On)
        as (b & Eb & Sh & V). exists b. split; [exact E |]. split; [exact Eb |]. split; [exact Sh |]. intros s f c H.
      destruct (code_cases false _ (Inc _ (nth_type c H))) as (n & En & In_). unfold correlation. rewrite En.
      assert (Y : linear_of (K := RR) (st s f 0) (st s f 1) (st s f 2) (st s f 3) n = None)
        by (cbn in In_; destruct In_ as [<-|[<-|[<-|[<-|[]]]]]; reflexivity).
      assert (X : exists x, circular_of (K := RR) (st s f 0) (st s f 1) (st s f 2) (st s f 3) n = Some x)
        by (cbn in In_; destruct In_ as [<-|[<-|[<-|[<-|[]]]]]; eexists; reflexivity).
      destruct X as (x & X). rewrite Y, X. f_equal. symmetry. apply (V [s; f] _ _ _ _ (Cy s f) (pos corrs c) n); [|exact X].
      rewrite Bx. apply At. exists c. auto.
  Qed.
End Types.
