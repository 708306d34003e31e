(* The kernel: every element of the output is the assigned expression of the elements of the same source. *)
From Coq Require Import String Permutation.
From Verif Require Import Prelude PreludeFacts LoopFacts CRing UtilModel UtilProofs2 CohModel DaskRimeModel CudaRimeModel CudaCohModel.
Open Scope nat_scope.

Lemma digits E a b x y : a * E + x = b * E + y -> x < E -> y < E -> a = b /\ x = y.
Proof. intros H Hx Hy. assert (a = b); [destruct (Nat.lt_trichotomy a b) as [?|[?|?]]; nia|]. subst. lia. Qed.
Section Kernel.
  Context {K : cops}.
  Notation cx := (cx K).
  Lemma load_at E n M (inp : nat -> cx) src regs e : e < E -> src + e * M < E * n -> load E n M inp src regs e = inp (src + e * M).
  Proof.
    intros He Hu. unfold load.
    assert (H : (fun k (s : arr cx * nat) => (snd s = src + k * M \/ (E * n <= snd s /\ E * n <= src + k * M)) /\
                  (forall e, e < k -> src + e * M < E * n -> fst s e = inp (src + e * M)))
                E (for_ E (fun elem (s : arr cx * nat) =>
           let '(regs, idx) := s in
           if Nat.ltb idx (E * n) then (upd regs elem (inp idx), idx + M) else (regs, idx)) (regs, src))).
    { apply (for_inv (fun k (s : arr cx * nat) => (snd s = src + k * M \/ (E * n <= snd s /\ E * n <= src + k * M)) /\
                  (forall e, e < k -> src + e * M < E * n -> fst s e = inp (src + e * M)))).
      - cbn. split; [left; lia|]. intros; lia.
      - intros k [r i] Hk [Hi Hr]. cbn [fst snd] in *. destruct (Nat.ltb_spec i (E * n)) as [Hl|Hl]; cbn [fst snd].
        + destruct Hi as [Hi|[Hi _]]; [|lia]. split; [left; lia|]. intros e' He' Hu'.
          destruct (Nat.eq_dec e' k) as [->|Ne]; [rewrite upd_eq; now rewrite Hi|]. rewrite upd_neq by auto. apply Hr; lia.
        + split; [right; nia|]. intros e' He' Hu'. destruct (Nat.eq_dec e' k) as [->|Ne]; [|apply Hr; lia].
          exfalso. destruct Hi as [Hi|[_ Hi]]; lia. }
    apply H; auto.
  Qed.
  Lemma store_at E n M src (regs : arr cx) outp : 0 < M ->
    (forall e, e < E -> src + e * M < E * n -> store E n M src regs outp (src + e * M) = regs e) /\
    (forall q, (forall e, e < E -> q <> src + e * M) -> store E n M src regs outp q = outp q).
  Proof.
    intros HM. unfold store.
    assert (H : (fun k (s : (nat -> cx) * nat) => (snd s = src + k * M \/ (E * n <= snd s /\ E * n <= src + k * M)) /\
                  (forall e, e < k -> src + e * M < E * n -> fst s (src + e * M) = regs e) /\
                  (forall q, (forall e, e < k -> q <> src + e * M) -> fst s q = outp q))
                E (for_ E (fun elem (s : (nat -> cx) * nat) =>
           let '(outp, idx) := s in
           if Nat.ltb idx (E * n) then (upd outp idx (regs elem), idx + M) else (outp, idx)) (outp, src))).
    { apply (for_inv (fun k (s : (nat -> cx) * nat) => (snd s = src + k * M \/ (E * n <= snd s /\ E * n <= src + k * M)) /\
                  (forall e, e < k -> src + e * M < E * n -> fst s (src + e * M) = regs e) /\
                  (forall q, (forall e, e < k -> q <> src + e * M) -> fst s q = outp q))).
      - cbn. split; [left; lia|]. split; intros; [lia|auto].
      - intros k [r i] Hk (Hi & Hr & Hf). cbn [fst snd] in *. destruct (Nat.ltb_spec i (E * n)) as [Hl|Hl]; cbn [fst snd].
        + destruct Hi as [Hi|[Hi _]]; [|lia]. split; [left; lia|]. split.
          * intros e' He' Hu'. destruct (Nat.eq_dec e' k) as [->|Ne]; [rewrite Hi; now rewrite upd_eq|].
            rewrite upd_neq by nia. apply Hr; lia.
          * intros q Hq. rewrite upd_neq by (rewrite Hi; apply Hq; lia). apply Hf. intros e' He'. apply Hq. lia.
        + split; [right; nia|]. split.
          * intros e' He' Hu'. destruct (Nat.eq_dec e' k) as [->|Ne]; [|apply Hr; lia].
            exfalso. destruct Hi as [Hi|[_ Hi]]; lia.
          * intros q Hq. apply Hf. intros e' He'. apply Hq. lia. }
    destruct H as (_ & H1 & H2). auto.
  Qed.
  Lemma assign_other exprs (i o : arr cx) q : ~ In q (map (fun e : assignment => snd (fst e)) exprs) -> assign exprs i o q = o q.
  Proof.
    unfold assign. revert o. induction exprs as [|[[[a b] oo] fn] l IH]; intros o H; cbn in *; auto.
    rewrite IH by tauto. apply upd_neq. intros ->. tauto.
  Qed.
  Lemma assign_at exprs (i o : arr cx) a b q fn : NoDup (map (fun e : assignment => snd (fst e)) exprs) -> In (a, b, q, fn) exprs ->
    assign exprs i o q = fn (i a) (i b).
  Proof.
    unfold assign. revert o. induction exprs as [|[[[a' b'] o'] fn'] l IH]; intros o N H; cbn in *; [tauto|].
    inversion N; subst. destruct H as [H|H]; [|now apply IH]. injection H as -> -> -> ->.
    pose proof (assign_other l i (upd o q (fn (i a) (i b))) q) as X. unfold assign in X. rewrite X by auto. now rewrite upd_eq.
  Qed.

  Section Group.
    Variables (E n : nat) (exprs : list (@assignment K)) (und : nat -> arr cx * arr cx) (inp : nat -> cx).
    Hypothesis HE : 0 < E.
    Let m := (n + (E - 1)) / E.
    Let M := E * m.
    Lemma sources_fit : n <= E * m.
    Proof. unfold m. assert (X := Nat.div_mod (n + (E - 1)) E). assert (Y := Nat.mod_upper_bound (n + (E - 1)) E). nia. Qed.
    (* the source s is in group s mod m, lane s / m *)
    Lemma group_ok g out : exists out', run_group E n exprs und inp g out = Ok out' /\
      (forall s o, s < n -> o < E -> s mod m <> g -> out' (s * E + o) = out (s * E + o)) /\
      (forall s a b o fn, s < n -> s mod m = g -> NoDup (map (fun e : assignment => snd (fst e)) exprs) -> In (a, b, o, fn) exprs ->
        a < E -> b < E -> o < E -> out' (s * E + o) = fn (inp (s * E + a)) (inp (s * E + b))).
    Proof.
      unfold run_group. fold m. fold M. rewrite Nat.add_0_r.
      assert (Hfit := sources_fit).
      assert (Dec : forall s, s < n -> 0 < m /\ s = (s / m) * m + s mod m /\ s mod m < m /\ s / m < E).
      { intros s Hs. assert (0 < m) by nia. split; [auto|]. split; [rewrite Nat.mul_comm; apply Nat.div_mod; lia|].
        split; [apply Nat.mod_upper_bound; lia|]. apply Nat.div_lt_upper_bound; nia. }
      destruct (Nat.leb_spec M (g * E)) as [Hg|Hg].
      { exists out. split; auto. split; auto. intros s a b o fn Hs Hsg. exfalso. destruct (Dec s Hs) as (P & Q & R & T).
        unfold M in Hg. nia. }
      assert (Hgm : g < m) by (unfold M in Hg; nia).
      destruct (warp_transpose_spec E (fun lane => load E n M inp (g * E + lane) (fst (und (g * E + lane))))) as (v & Ev & Hv).
      rewrite Ev. cbn [bind].
      destruct (warp_transpose_spec E (fun lane => assign exprs (v lane) (snd (und (g * E + lane))))) as (w & Ew & Hw).
      rewrite Ew. cbn [bind]. eexists. split; [reflexivity|].
      assert (HM : 0 < M) by (unfold M; nia).
      split.
      - intros s o Hs Ho Hsg. destruct (Dec s Hs) as (P & Q & R & T).
        apply (for_frame (fun out : nat -> cx => out (s * E + o))). intros lane out1 Hl.
        apply store_at; auto. intros e He F. apply Hsg.
        (* s*E+o = g*E+lane+e*E*m *)
        assert (X : s = g + e * m).
        { apply (digits E s (g + e * m) o lane); auto. unfold M in F. nia. }
        rewrite X. rewrite Nat.mod_add by lia. apply Nat.mod_small. auto.
      - intros s a b o fn Hs Hsg N Hin Ha Hb Ho. destruct (Dec s Hs) as (P & Q & R & T). rewrite Hsg in *.
        set (c := s / m) in *.
        assert (Pos : forall x, s * E + x = g * E + x + c * M) by (intros x; unfold M; nia).
        rewrite (for_at (fun out : nat -> cx => out (s * E + o)) (fun _ => w o c) o); auto.
        + rewrite Hw by auto. rewrite (assign_at exprs _ _ a b o fn) by auto. rewrite !Hv by auto.
          rewrite !load_at; auto; try (rewrite <- Pos; nia). now rewrite <- !Pos.
        + intros lane out1 Hl Nl. apply store_at; auto. intros e He F.
          apply Nl. symmetry. apply (digits E s (g + e * m) o lane); auto. unfold M in F. nia.
        + intros out1. rewrite Pos. apply store_at; auto. rewrite <- Pos. nia.
    Qed.
    Lemma groups_ok order : forall out, exists out', run_groups E n exprs und inp order out = Ok out' /\
      (forall s o, s < n -> o < E -> ~ In (s mod m) order -> out' (s * E + o) = out (s * E + o)) /\
      (forall s a b o fn, s < n -> In (s mod m) order -> NoDup (map (fun e : assignment => snd (fst e)) exprs) -> In (a, b, o, fn) exprs ->
        a < E -> b < E -> o < E -> out' (s * E + o) = fn (inp (s * E + a)) (inp (s * E + b))).
    Proof.
      induction order as [|g order IH]; intros out; cbn [run_groups].
      - exists out. split; auto. split; auto. intros s a b o fn _ [].
      - destruct (group_ok g out) as (o1 & E1 & F1 & V1). rewrite E1. cbn [bind].
        destruct (IH o1) as (o2 & E2 & F2 & V2). exists o2. split; auto. split.
        + intros s o Hs Ho Hn. cbn in Hn. rewrite F2 by tauto. apply F1; auto; intuition congruence.
        + intros s a b o fn Hs Hin N He Ha Hb Ho.
          destruct (in_dec Nat.eq_dec (s mod m) order) as [I|I]; [eapply V2; eauto|].
          rewrite F2 by auto. apply V1 with (1 := Hs); auto. cbn in Hin. intuition.
    Qed.
    (* enough groups are launched, if the block is a multiple of the number of elements *)
    Lemma enough k s : 512 = E * k -> s < n ->
      s mod m < Nat.max 1 (Z.to_nat ((Z.of_nat n + 512 - 1) / 512)) * 512 / E.
    Proof.
      intros Hk Hs. assert (Hfit := sources_fit). assert (0 < m) by nia.
      set (gx := Nat.max 1 (Z.to_nat ((Z.of_nat n + 512 - 1) / 512))).
      assert (G : n <= gx * 512).
      { assert (X := Z.div_mod (Z.of_nat n + 512 - 1) 512). assert (Y := Z.mod_pos_bound (Z.of_nat n + 512 - 1) 512).
        assert (0 <= (Z.of_nat n + 512 - 1) / 512)%Z by (apply Z.div_pos; lia). lia. }
      replace (gx * 512 / E) with (gx * k).
      - assert (s mod m < m) by (apply Nat.mod_upper_bound; lia).
        assert (m <= gx * k); [|lia].
        assert (n + (E - 1) < E * (gx * k + 1)) by nia.
        assert (m < gx * k + 1); [|lia]. unfold m. apply Nat.div_lt_upper_bound; lia.
      - rewrite Hk. replace (gx * (E * k)) with (gx * k * E) by nia. now rewrite Nat.div_mul by lia.
    Qed.
  End Group.
End Kernel.
