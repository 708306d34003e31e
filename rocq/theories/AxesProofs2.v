From Coq Require Import Reals String Ascii DecimalString Lra Lia.
From Verif Require Import Prelude AxesModel AxesSpec AxesProofs.
Close Scope R_scope.
Open Scope nat_scope.

(* ---- names ---- *)
Lemma smap_nil f s : smap f s = EmptyString <-> s = EmptyString.
Proof. destruct s; cbn; split; try discriminate; reflexivity. Qed.
Lemma up_char (a : ascii) (k : ascii) : up k = k -> low k <> k -> up a = k -> a = k \/ a = low k.
Proof.
  intros Hk Hk2. unfold up. set (n := nat_of_ascii a). destruct (Nat.leb 97 n && Nat.leb n 122) eqn:E; [|intros ->; now left]. intros H. right. apply andb_true_iff in E as [E1 E2]. apply Nat.leb_le in E1, E2.
  subst k. unfold low. rewrite nat_ascii_embedding by lia. replace (Nat.leb 65 (n - 32) && Nat.leb (n - 32) 90) with true by (symmetry; apply andb_true_iff; split; apply Nat.leb_le; lia).
  replace (n - 32 + 32) with n by lia. unfold n. symmetry. apply ascii_nat_embedding.
Qed.
Lemma upper_1 (k : ascii) s : up k = k -> low k <> k -> (upper s = String k EmptyString <-> s = String k EmptyString \/ s = String (low k) EmptyString).
Proof.
  intros H1 H2. split.
  - destruct s as [|c r]; [discriminate|]. unfold upper. cbn. intros E. injection E as E1 E2. apply smap_nil in E2 as ->. destruct (up_char c k H1 H2 E1) as [->| ->]; auto.
  - intros [->| ->]; unfold upper; cbn; [now rewrite H1|]. f_equal. unfold low, up. unfold low in H2. set (n := nat_of_ascii k) in *. destruct (Nat.leb 65 n && Nat.leb n 90) eqn:E; [|contradiction]. apply andb_true_iff in E as [E1 E2]. apply Nat.leb_le in E1, E2.
    rewrite nat_ascii_embedding by lia. replace (Nat.leb 97 (n + 32) && Nat.leb (n + 32) 122) with true by (symmetry; apply andb_true_iff; split; apply Nat.leb_le; lia). replace (n + 32 - 32) with n by lia. unfold n. apply ascii_nat_embedding.
Qed.
Lemma upper_cons c r k t : upper (String c r) = String k t <-> up c = k /\ upper r = t.
Proof. unfold upper. cbn. split; [intros E; now injection E|intros [-> ->]; reflexivity]. Qed.
Lemma l_names s : is_l s = true <-> l_name s.
Proof.
  unfold is_l, l_name. split.
  - intros H. apply existsb_exists in H as (x & Hx & E). apply String.eqb_eq in E. destruct Hx as [<-|[<-|[<-|[]]]].
    + apply upper_1 in E as [->| ->]; cbn; auto 10; discriminate.
    + apply upper_1 in E as [->| ->]; cbn; auto 10; discriminate.
    + destruct s as [|c r]; [discriminate|]. apply upper_cons in E as [E1 E2]. apply upper_1 in E2; [|reflexivity|discriminate]. apply up_char in E1; [|reflexivity|discriminate]. destruct E1 as [->| ->], E2 as [->| ->]; cbn; auto 10.
  - cbn. intros H. repeat (destruct H as [<-|H]; [reflexivity|]). easy.
Qed.
Lemma m_names s : is_m s = true <-> m_name s.
Proof.
  unfold is_m, m_name. split.
  - intros H. apply existsb_exists in H as (x & Hx & E). apply String.eqb_eq in E. destruct Hx as [<-|[<-|[<-|[]]]].
    + apply upper_1 in E as [->| ->]; cbn; auto 10; discriminate.
    + apply upper_1 in E as [->| ->]; cbn; auto 10; discriminate.
    + destruct s as [|c r]; [discriminate|]. apply upper_cons in E as [E1 E2]. apply upper_1 in E2; [|reflexivity|discriminate]. apply up_char in E1; [|reflexivity|discriminate]. destruct E1 as [->| ->], E2 as [->| ->]; cbn; auto 10.
  - cbn. intros H. repeat (destruct H as [<-|H]; [reflexivity|]). easy.
Qed.
Lemma l_not_m s : l_name s -> m_name s -> False.
Proof. unfold l_name, m_name. cbn. intros H. repeat (destruct H as [<-|H]; [intros G; repeat (destruct G as [G|G]; [discriminate|]); easy|]). easy. Qed.
Lemma l_not_freq s : l_name s -> freq_name s -> False.
Proof. unfold l_name, freq_name. cbn. intros H. repeat (destruct H as [<-|H]; [discriminate|]). easy. Qed.
Lemma m_not_freq s : m_name s -> freq_name s -> False.
Proof. unfold m_name, freq_name. cbn. intros H. repeat (destruct H as [<-|H]; [discriminate|]). easy. Qed.

(* the last index at which P holds *)
Fixpoint last_idx (P : axis -> bool) (i : nat) (l : list axis) (acc : option nat) : option nat :=
  match l with [] => acc | a :: l => last_idx P (S i) l (if P a then Some i else acc) end.
Lemma find_last i l f : find_axes i l f = {| f_l := last_idx (fun a => is_l (a_ctype a)) i l (f_l f); f_m := last_idx (fun a => is_m (a_ctype a)) i l (f_m f); f_freq := last_idx (fun a => is_freq (a_ctype a)) i l (f_freq f) |}.
Proof.
  revert i f. induction l as [|a l IH]; intros i f; [now destruct f|]. cbn [find_axes last_idx]. rewrite IH. destruct (is_l (a_ctype a)) eqn:El; cbn [f_l f_m f_freq].
  - apply l_names in El. destruct (is_m (a_ctype a)) eqn:Em; [apply m_names in Em; destruct (l_not_m _ El Em)|]. destruct (is_freq (a_ctype a)) eqn:Eq; [apply String.eqb_eq in Eq; destruct (l_not_freq _ El Eq)|]. reflexivity.
  - destruct (is_m (a_ctype a)) eqn:Em; cbn [f_l f_m f_freq]; [|destruct (is_freq (a_ctype a)); reflexivity]. apply m_names in Em. destruct (is_freq (a_ctype a)) eqn:Eq; [apply String.eqb_eq in Eq; destruct (m_not_freq _ Em Eq)|]. reflexivity.
Qed.
Lemma last_idx_spec P l : forall i acc k, last_idx P i l acc = Some k ->
  (acc = Some k /\ forall j a, nth_error l j = Some a -> P a = false) \/ (i <= k /\ (exists a, nth_error l (k - i) = Some a /\ P a = true) /\ forall j a, k - i < j -> nth_error l j = Some a -> P a = false).
Proof.
  induction l as [|a l IH]; intros i acc k; cbn [last_idx].
  - intros ->. left. split; [reflexivity|]. intros j a. now destruct j.
  - intros E. apply IH in E as [[E N]|(Hk & (b & Eb & Pb) & N)].
    + destruct (P a) eqn:Pa.
      * injection E as ->. right. split; [lia|]. rewrite Nat.sub_diag. split; [now exists a|]. intros j b Hj. destruct j; [lia|]. cbn. apply N.
      * left. split; [exact E|]. intros j b. destruct j; cbn; [intros Eb; injection Eb as <-; exact Pa|apply N].
    + right. split; [lia|]. replace (k - i) with (S (k - S i)) by lia. split; [now exists b|]. intros j c Hj. destruct j; [lia|]. cbn. apply N. lia.
Qed.
Lemma last_idx_none P l : forall i acc, last_idx P i l acc = None <-> acc = None /\ forall a, In a l -> P a = false.
Proof.
  induction l as [|a l IH]; intros i acc; cbn [last_idx].
  - split; [intros ->; split; [reflexivity|easy]|now intros [-> _]].
  - rewrite IH. destruct (P a) eqn:Pa.
    + split; [intros [E _]; discriminate|]. intros [_ H]. specialize (H a (or_introl eq_refl)). congruence.
    + split; [intros [E H]; split; [exact E|intros b [<-|Hb]; auto]|intros [E H]; split; [exact E|intros b Hb; apply H; now right]].
Qed.
Lemma last_axis_of (P : string -> bool) (Q : string -> Prop) axes k a : (forall s, P s = true <-> Q s) -> last_idx (fun a => P (a_ctype a)) 0 axes None = Some k -> nth_error axes k = Some a -> last_axis Q axes (k + 1) a.
Proof.
  intros PQ E Ea. apply last_idx_spec in E as [[E _]|(_ & (b & Eb & Pb) & N)]; [discriminate|]. rewrite Nat.sub_0_r in *. rewrite Ea in Eb. injection Eb as <-. split; [lia|]. rewrite Nat.add_sub. split; [exact Ea|]. split; [now apply PQ|].
  intros i c Hi Ec Hc. apply PQ in Hc. rewrite (N i c ltac:(lia) Ec) in Hc. discriminate.
Qed.
Lemma sign_ok ax d s : axis_and_sign ax (Some d) = Ok s -> d <> EmptyString -> sign_of ax (snd s).
Proof.
  intros E Hd. unfold axis_and_sign in E. rewrite (proj2 (String.eqb_neq d EmptyString) Hd) in E. unfold sign_of. destruct ax as [|t|[|]].
  - injection E as <-. right. repeat split; discriminate.
  - destruct t as [|c r]; [injection E as <-; right; repeat split; discriminate|]. injection E as <-. destruct (Ascii.eqb_spec c "-") as [->|N]; cbn [snd]; [left; now exists r|]. right. split; [|split; [discriminate|reflexivity]]. intros r' E. injection E as -> _. now apply N.
  - discriminate.
  - injection E as <-. right. repeat split; discriminate.
Qed.
Lemma sign_total ax d : d <> EmptyString -> ax <> AxObject true -> exists s, axis_and_sign ax (Some d) = Ok s.
Proof. intros Hd H. unfold axis_and_sign. rewrite (proj2 (String.eqb_neq d EmptyString) Hd). destruct ax as [|t|[|]]; try (eexists; reflexivity); [|contradiction]. destruct t; eexists; reflexivity. Qed.
Lemma freq_names s : is_freq s = true <-> freq_name s.
Proof. apply String.eqb_eq. Qed.
Lemma grids_ok h la ma l nl gl m nm gm q nq gq : beam_grids h la ma = Ok ((l, nl, gl), (m, nm, gm), (q, nq, gq)) ->
  exists axes al am aq ls ms, beam_axes h = Ok axes /\ last_axis l_name axes l al /\ last_axis m_name axes m am /\ last_axis freq_name axes q aq /\ sign_of la ls /\ sign_of ma ms /\
    nl = a_size al /\ nm = a_size am /\ nq = a_size aq /\ forall j, gl j = (ls * a_grid al j)%R /\ gm j = (ms * a_grid am j)%R /\ gq j = a_grid aq j.
Proof.
  unfold beam_grids. rewrite bind_ok'. intros (axes & Ea & E). rewrite find_last in E. cbn [f_l f_m f_freq] in E.
  destruct (last_idx (fun a => is_l _) _ _ _) as [l'|] eqn:El; [|discriminate]. destruct (last_idx (fun a => is_m _) _ _ _) as [m'|] eqn:Em; [|discriminate]. destruct (last_idx (fun a => is_freq _) _ _ _) as [q'|] eqn:Eq; [|discriminate].
  apply bind_ok' in E as ([n1 ls] & Els & E). apply bind_ok' in E as ([n2 ms] & Ems & E). destruct (nth_error axes l') as [al|] eqn:Al; [|discriminate]. destruct (nth_error axes m') as [am|] eqn:Am; [|discriminate]. destruct (nth_error axes q') as [aq|] eqn:Aq; [|discriminate].
  injection E as <- <- <- <- <- <- <- <- <-. exists axes, al, am, aq, ls, ms. split; [exact Ea|]. split; [apply (last_axis_of is_l _ _ _ _ l_names El Al)|]. split; [apply (last_axis_of is_m _ _ _ _ m_names Em Am)|]. split; [apply (last_axis_of is_freq _ _ _ _ freq_names Eq Aq)|].
  split; [exact (sign_ok _ _ _ Els ltac:(discriminate))|]. split; [exact (sign_ok _ _ _ Ems ltac:(discriminate))|]. repeat split; ring.
Qed.
Lemma grids_total h la ma axes : beam_axes h = Ok axes -> (exists a, In a axes /\ l_name (a_ctype a)) -> (exists a, In a axes /\ m_name (a_ctype a)) -> (exists a, In a axes /\ freq_name (a_ctype a)) ->
  la <> AxObject true -> ma <> AxObject true -> exists o, beam_grids h la ma = Ok o.
Proof.
  intros Ea (a1 & I1 & H1) (a2 & I2 & H2) (a3 & I3 & H3) Hla Hma. unfold beam_grids. rewrite Ea. cbn [bind]. rewrite find_last. cbn [f_l f_m f_freq].
  assert (X : forall P Q a, (forall s, P s = true <-> Q s) -> In a axes -> Q (a_ctype a) -> exists k b, last_idx (fun a => P (a_ctype a)) 0 axes None = Some k /\ nth_error axes k = Some b).
  { intros P Q a PQ Ia Qa. destruct (last_idx (fun a => P (a_ctype a)) 0 axes None) as [k|] eqn:E.
    - pose proof E as E'. apply last_idx_spec in E as [[E _]|(_ & (b & Eb & _) & _)]; [discriminate|]. rewrite Nat.sub_0_r in Eb. now exists k, b.
    - apply last_idx_none in E as [_ N]. apply PQ in Qa. rewrite (N a Ia) in Qa. discriminate. }
  destruct (X _ _ _ l_names I1 H1) as (k1 & b1 & -> & N1). destruct (X _ _ _ m_names I2 H2) as (k2 & b2 & -> & N2). destruct (X _ _ _ freq_names I3 H3) as (k3 & b3 & -> & N3).
  destruct (sign_total la "L" ltac:(discriminate) Hla) as ([? ls] & ->). destruct (sign_total ma "M" ltac:(discriminate) Hma) as ([? ms] & ->). cbn [bind]. rewrite N1, N2, N3. eexists. reflexivity.
Qed.
Lemma grids_missing h la ma axes : beam_axes h = Ok axes -> (forall a, In a axes -> ~ l_name (a_ctype a)) \/ (forall a, In a axes -> ~ m_name (a_ctype a)) \/ (forall a, In a axes -> ~ freq_name (a_ctype a)) -> beam_grids h la ma = Raise ValueError.
Proof.
  intros Ea H. unfold beam_grids. rewrite Ea. cbn [bind]. rewrite find_last. cbn [f_l f_m f_freq].
  assert (X : forall P Q, (forall s, P s = true <-> Q s) -> (forall a, In a axes -> ~ Q (a_ctype a)) -> last_idx (fun a => P (a_ctype a)) 0 axes None = None).
  { intros P Q PQ N. apply last_idx_none. split; [reflexivity|]. intros a Ia. destruct (P (a_ctype a)) eqn:E; [|reflexivity]. apply PQ in E. destruct (N a Ia E). }
  destruct H as [H|[H|H]].
  - now rewrite (X _ _ l_names H).
  - rewrite (X _ _ m_names H). match goal with |- context [last_idx ?a ?b ?c ?d] => now destruct (last_idx a b c d) end.
  - rewrite (X _ _ freq_names H). repeat match goal with |- context [last_idx ?a ?b ?c ?d] => destruct (last_idx a b c d) end; reflexivity.
Qed.
