(* the degridder: rows are independent *)
From Coq Require Import String Reals Lra FunctionalExtensionality Permutation.
From Verif Require Import Prelude PreludeFacts CRing CplxR LoopFacts StokesGridModel StokesGridSpec StokesGridProofs FacetModel FacetProofs DftModel DftProofs GridModel GridSpec GridProofs GridProofs2 GridProofs3 GridProofs4 GridProofs5.
Close Scope R_scope.
Open Scope nat_scope.

Notation gatherer := (R -> R -> nat -> arr2 RC -> arr RC -> (RC -> arr RC -> arr RC) -> kernel -> res (arr RC)).
Definition calm (gather : gatherer) : Prop := forall su sv npix grid v f k,
  (exists v', gather su sv npix grid v f k = Ok v') \/ gather su sv npix grid v f k = Raise IndexError.
Lemma gather_calm index : calm (convolve_gather index).
Proof.
  intros su sv npix grid v f k. unfold convolve_gather.
  match goal with |- context [forM (width k) ?b ?s0] => destruct (forM_cases (width k) b IndexError s0) as [((v' & cw) & ->)| ->] end; [|left; eexists; reflexivity|right; reflexivity].
  intros i s Hi. destruct (getitem_cases (nsamples k) (samples k) (index k (fraction npix sv (oversampling k)) i)) as [(x & ->)| ->]; [|right; reflexivity]. cbn [bind].
  apply forM_cases. intros j s' Hj. destruct (getitem_cases (nsamples k) (samples k) (index k (fraction npix su (oversampling k)) j)) as [(z & ->)| ->]; [left; eexists; reflexivity|right; reflexivity].
Qed.
Lemma gather_policy_calm p gather : gather_policy p = Ok gather -> calm gather.
Proof.
  unfold gather_policy. destruct (p =? _)%string; [intros H; injection H as <-; apply gather_calm|]. destruct (p =? _)%string; [intros H; injection H as <-; apply gather_calm|discriminate].
Qed.

(* steps that commute can be taken in any order *)
Lemma rows_perm {S} (body : nat -> S -> res S) : (forall r1 r2 s, r1 <> r2 -> (do! s1 <- body r1 s; body r2 s1) = (do! s1 <- body r2 s; body r1 s1)) ->
  forall l l', Permutation l l' -> NoDup l -> forall s, rows_in_order l body s = rows_in_order l' body s.
Proof.
  intros C. unfold rows_in_order.
  assert (X : forall l l', Permutation l l' -> NoDup l -> forall acc : res S, fold_left (fun a r => do! s <- a; body r s) l acc = fold_left (fun a r => do! s <- a; body r s) l' acc).
  { intros l l' HP. induction HP as [|x l l' HP IH|x y l|l l' l'' HP1 IH1 HP2 IH2]; intros N acc.
    - reflexivity.
    - cbn [fold_left]. apply IH. now inversion N.
    - cbn [fold_left]. f_equal. inversion N as [|? ? N1 N2]; subst. destruct acc as [s|e]; cbn [bind]; [|reflexivity]. apply C. intros ->. apply N1. now left.
    - rewrite IH1 by exact N. apply IH2. eapply Permutation_NoDup; eauto. }
  intros l l' HP N s. now apply X.
Qed.

Section Degrid.
  Variables (npix nchan : nat) (a : setup) (wl : arr R) (cm : arr nat) (stack : arr3 RC).
  Variables (P : nat -> arr2 RC -> arr R -> nat -> arr R -> R -> R -> R -> R -> R -> arr2 RC) (B : arr R -> nat -> R -> R -> R -> R -> arr R).
  Variables (gather : gatherer) (tc : RC -> arr RC -> arr RC).
  Hypothesis Hcalm : calm gather.
  Definition dg_uvw (m : arr R) (r : nat) : arr R := B m r (fst (image_centre a)) (snd (image_centre a)) (fst (phase_centre a)) (snd (phase_centre a)).
  Definition dg_vis (row : arr2 RC) (m : arr R) (r : nat) : arr2 RC :=
    P nchan row m r wl (fst (phase_centre a)) (snd (phase_centre a)) (fst (image_centre a)) (snd (image_centre a)) (-1)%R.
  (* the row before the phases, given the transformed memory *)
  Definition dg_row (r : nat) (m : arr R) (row0 : arr2 RC) : res (arr2 RC) :=
    forM nchan (fun c (row : arr2 RC) =>
      do! v <- gather (coord npix a wl m r c 0) (coord npix a wl m r c 1) npix (stack (cm c)) (row c) tc (kern a);
      Ok (fun c' => if Nat.eqb c' c then v else row c')) row0.
  Notation drow := (degrid_row npix nchan a wl cm stack P B gather tc).
  Lemma degrid_row_eq r s : drow r s = (do! row <- dg_row r (dg_uvw (fst s) r) (snd s r);
    Ok (dg_uvw (fst s) r, fun r' => if Nat.eqb r' r then dg_vis row (dg_uvw (fst s) r) r else snd s r')).
  Proof.
    unfold degrid_row, dg_row, dg_uvw, dg_vis, coord. destruct (phase_centre a) as [ra0 dec0], (image_centre a) as [ra dec]. cbn [fst snd]. reflexivity.
  Qed.
  Lemma dg_row_cases r m row0 : (exists row, dg_row r m row0 = Ok row) \/ dg_row r m row0 = Raise IndexError.
  Proof.
    unfold dg_row. apply forM_cases. intros c row Hc.
    destruct (Hcalm (coord npix a wl m r c 0) (coord npix a wl m r c 1) npix (stack (cm c)) (row c) tc (kern a)) as [(v & ->)| ->]; [left; eexists; reflexivity|right; reflexivity].
  Qed.
  Lemma dg_row_local r m m' row0 : (forall i, i < 3 -> m (comp r i) = m' (comp r i)) -> dg_row r m row0 = dg_row r m' row0.
  Proof. intros H. unfold dg_row. apply forM_ext. intros c row Hc. unfold coord. now rewrite !H by lia. Qed.
  Lemma dg_row_value r m row0 : (forall row, dg_row r m row0 = Ok row -> forall c, (c < nchan -> gather (coord npix a wl m r c 0) (coord npix a wl m r c 1) npix (stack (cm c)) (row0 c) tc (kern a) = Ok (row c)) /\ (nchan <= c -> row c = row0 c)) /\
    ((forall c, c < nchan -> exists v, gather (coord npix a wl m r c 0) (coord npix a wl m r c 1) npix (stack (cm c)) (row0 c) tc (kern a) = Ok v) -> exists row, dg_row r m row0 = Ok row).
  Proof.
    unfold dg_row. induction nchan as [|n (IH1 & IH2)].
    - split; [intros row H; injection H as <-; intros c; split; [lia|reflexivity]|intros _; eexists; reflexivity].
    - cbn [forM]. destruct (forM n _ row0) as [row1|e] eqn:E.
      + specialize (IH1 row1 eq_refl). cbn [bind]. split.
        * intros row. assert (R1 : row1 n = row0 n) by (apply IH1; lia). rewrite R1.
          destruct (gather (coord npix a wl m r n 0) (coord npix a wl m r n 1) npix (stack (cm n)) (row0 n) tc (kern a)) as [v|] eqn:Eg; [|discriminate]. cbn [bind]. intros H. injection H as <-.
          intros c. destruct (Nat.eqb_spec c n) as [->|Hne]; split; intros Hc; try lia; [exact Eg|apply IH1; lia|apply IH1; lia].
        * intros H. assert (R1 : row1 n = row0 n) by (apply IH1; lia). rewrite R1. destruct (H n) as (v & ->); [lia|]. eexists. reflexivity.
      + cbn [bind]. split; [discriminate|]. intros H. destruct IH2 as (row & X); [intros; apply H; lia|discriminate].
  Qed.
  (* the row transformation looks at its own row only *)
  Definition row_local : Prop := forall m m' r, (forall i, i < 3 -> m (comp r i) = m' (comp r i)) -> forall i, i < 3 -> dg_uvw m r (comp r i) = dg_uvw m' r (comp r i).
  Hypothesis loc : row_local.
  Hypothesis frame : forall m r q, q < 3 * r \/ 3 * r + 2 < q -> dg_uvw m r q = m q.
  Hypothesis phase_local : forall v m m' r, (forall i, i < 3 -> m (comp r i) = m' (comp r i)) -> dg_vis v m r = dg_vis v m' r.
  Lemma other_row m r r' i : r <> r' -> i < 3 -> dg_uvw m r (comp r' i) = m (comp r' i).
  Proof. intros H Hi. apply frame. unfold comp. lia. Qed.
  Lemma uvw_commute m r1 r2 : r1 <> r2 -> dg_uvw (dg_uvw m r1) r2 = dg_uvw (dg_uvw m r2) r1.
  Proof.
    intros H. extensionality q. assert (E : q = comp (q / 3) (q mod 3)) by (unfold comp; apply Nat.div_mod; lia). assert (L : q mod 3 < 3) by (apply Nat.mod_upper_bound; lia).
    rewrite E. set (r := q / 3) in *. set (i := q mod 3) in *. clearbody r i. clear E.
    destruct (Nat.eq_dec r r1) as [->|N1].
    - rewrite other_row by auto. apply loc; [|exact L]. intros j Hj. symmetry. now apply other_row; auto.
    - destruct (Nat.eq_dec r r2) as [->|N2].
      + rewrite (other_row (dg_uvw m r2) r1) by auto. apply loc; [|exact L]. intros j Hj. now apply other_row; auto.
      + now rewrite !other_row by auto.
  Qed.
  Lemma rows_commute r1 r2 s : r1 <> r2 -> (do! s1 <- drow r1 s; drow r2 s1) = (do! s1 <- drow r2 s; drow r1 s1).
  Proof.
    intros H. rewrite !degrid_row_eq. set (m1 := dg_uvw (fst s) r1). set (m2 := dg_uvw (fst s) r2).
    assert (L2 : forall i, i < 3 -> dg_uvw m1 r2 (comp r2 i) = m2 (comp r2 i)) by (apply loc; intros; now apply other_row; auto).
    assert (L1 : forall i, i < 3 -> dg_uvw m2 r1 (comp r1 i) = m1 (comp r1 i)) by (apply loc; intros; apply other_row; auto).
    destruct (dg_row r1 m1 (snd s r1)) as [row1|e1] eqn:E1; cbn [bind].
    - rewrite degrid_row_eq. cbn [fst snd]. destruct (Nat.eqb_spec r2 r1) as [->|_]; [congruence|]. rewrite (dg_row_local r2 _ m2 _ L2).
      destruct (dg_row r2 m2 (snd s r2)) as [row2|e2] eqn:E2; cbn [bind].
      + rewrite degrid_row_eq. cbn [fst snd]. destruct (Nat.eqb_spec r1 r2) as [->|_]; [congruence|]. rewrite (dg_row_local r1 _ m1 _ L1), E1. cbn [bind]. f_equal. f_equal.
        * now apply uvw_commute.
        * rewrite (phase_local row2 _ m2 r2 L2), (phase_local row1 _ m1 r1 L1). extensionality r'. destruct (Nat.eqb_spec r' r2), (Nat.eqb_spec r' r1); congruence.
      + reflexivity.
    - destruct (dg_row_cases r1 m1 (snd s r1)) as [(x & X)|X]; [congruence|]. rewrite E1 in X. injection X as ->.
      destruct (dg_row_cases r2 m2 (snd s r2)) as [(row2 & E2)|E2]; rewrite E2; cbn [bind]; [|reflexivity].
      rewrite degrid_row_eq. cbn [fst snd]. destruct (Nat.eqb_spec r1 r2) as [->|_]; [congruence|]. rewrite (dg_row_local r1 _ m1 _ L1), E1. reflexivity.
  Qed.
End Degrid.

Lemma baseline_row_local a p B : baseline_policy p = Ok B -> p <> "rotate"%string -> row_local a B.
Proof.
  intros E N m m' r H i Hi. unfold dg_uvw. unfold baseline_policy in E. destruct (p =? "None")%string; [injection E as <-; now apply H|].
  destruct (String.eqb_spec p "rotate"); [congruence|]. destruct (p =? _)%string; [|discriminate]. injection E as <-.
  assert (H0 := H 0 ltac:(lia)). assert (H1 := H 1 ltac:(lia)). assert (H2 := H 2 ltac:(lia)).
  unfold uvw_planarwapprox, upd, comp in *. do 3 (destruct i as [|i]; [repeat match goal with |- context [?u =? ?v] => destruct (Nat.eqb_spec u v); try lia end; congruence|]). lia.
Qed.
Lemma any_order order order' ucols uvw gb gy gx stack nchan wl ncm cm a : baseline a <> "rotate"%string -> NoDup order -> Permutation order order' ->
  degridder_ordered order ucols uvw gb gy gx stack nchan wl ncm cm a = degridder_ordered order' ucols uvw gb gy gx stack nchan wl ncm cm a.
Proof.
  intros Nb N HP. unfold degridder_ordered.
  destruct (phase_policy (phase a)) as [P|] eqn:EP; [|reflexivity]. destruct (baseline_policy (baseline a)) as [B|] eqn:EB; [|reflexivity].
  destruct (ncorr_out (stokes_conversion a)); [|reflexivity]. destruct (stokes2corr_impl (stokes_conversion a)) as [tc|]; [|reflexivity].
  destruct (gather_policy (convolution a)) as [gather|] eqn:EG; [|reflexivity]. cbn [bind].
  destruct (negb (ncm =? nchan)); [reflexivity|]. destruct (bands nchan cm) as [nb|]; [|reflexivity]. cbn [bind].
  destruct (negb (gy =? gx)); [reflexivity|]. destruct (gb <? nb); [reflexivity|]. destruct (negb (ucols =? 3)); [reflexivity|].
  rewrite (rows_perm _ (fun r1 r2 s H => rows_commute gy nchan a wl cm stack P B gather tc (gather_policy_calm _ _ EG) (baseline_row_local a _ _ EB Nb)
    (fun m r q Hq => baseline_frame _ _ _ _ _ _ m r q EB Hq) (fun v m m' r Hm => phase_depends _ _ _ _ _ _ nchan v m m' r wl (-1)%R EP Hm) r1 r2 s H) order order' HP N). reflexivity.
Qed.

Lemma rows_S {S} n (body : nat -> S -> res S) s : rows_in_order (seq 0 (Datatypes.S n)) body s = (do! s1 <- rows_in_order (seq 0 n) body s; body n s1).
Proof. unfold rows_in_order. rewrite seq_S, fold_left_app. reflexivity. Qed.

Section Serial.
  Variables (npix nchan : nat) (a : setup) (wl : arr R) (cm : arr nat) (stack : arr3 RC).
  Variables (P : nat -> arr2 RC -> arr R -> nat -> arr R -> R -> R -> R -> R -> R -> arr2 RC) (B : arr R -> nat -> R -> R -> R -> R -> arr R).
  Variables (gather : gatherer) (tc : RC -> arr RC -> arr RC).
  Hypothesis EP : phase_policy (phase a) = Ok P.
  Hypothesis EB : baseline_policy (baseline a) = Ok B.
  (* row r of the result, from the memory of uvw before the call *)
  Definition row_out (m : arr R) (r : nat) : res (arr2 RC) :=
    do! row <- dg_row npix nchan a wl cm stack gather tc r (dg_uvw a B m r) (fun _ _ => c0); Ok (dg_vis nchan a wl P row (dg_uvw a B m r) r).
  Notation drow := (degrid_row npix nchan a wl cm stack P B gather tc).
  Lemma row_out_local m m' r : (forall q, 3 * r <= q -> m q = m' q) -> row_out m r = row_out m' r.
  Proof.
    intros H. unfold row_out. assert (L : forall i, i < 3 -> dg_uvw a B m r (comp r i) = dg_uvw a B m' r (comp r i)) by (intros i Hi; unfold dg_uvw; eapply baseline_local; eauto).
    rewrite (dg_row_local npix nchan a wl cm stack gather tc r _ _ _ L).
    destruct (dg_row npix nchan a wl cm stack gather tc r (dg_uvw a B m' r) (fun _ _ => c0)); [|reflexivity]. cbn [bind]. f_equal. unfold dg_vis. eapply phase_depends; eauto.
  Qed.
  Lemma row_out_shift m n r : row_out (fun q => m (3 * n + q)) r = row_out m (n + r).
  Proof.
    unfold row_out. assert (S : dg_uvw a B (fun q => m (3 * n + q)) r = fun q => dg_uvw a B m (n + r) (3 * n + q)) by (unfold dg_uvw; apply baseline_shift with (p := baseline a); exact EB).
    rewrite S. assert (E : forall row0, dg_row npix nchan a wl cm stack gather tc r (fun q => dg_uvw a B m (n + r) (3 * n + q)) row0 = dg_row npix nchan a wl cm stack gather tc (n + r) (dg_uvw a B m (n + r)) row0).
    { intros row0. unfold dg_row. apply forM_ext. intros c row Hc. unfold coord. assert (C : forall i, 3 * n + comp r i = comp (n + r) i) by (intros; unfold comp; lia). now rewrite !C. }
    rewrite E. destruct (dg_row npix nchan a wl cm stack gather tc (n + r) (dg_uvw a B m (n + r)) (fun _ _ => c0)); [|reflexivity]. cbn [bind]. f_equal. unfold dg_vis. eapply phase_shift; eauto.
  Qed.
  Lemma serial_run n uvw : (forall r, r < n -> exists v, row_out uvw r = Ok v) ->
    exists s, rows_in_order (seq 0 n) drow (uvw, fun _ _ _ => c0) = Ok s /\ (forall r, r < n -> row_out uvw r = Ok (snd s r)) /\
      (forall r, n <= r -> snd s r = fun _ _ => c0) /\ (forall q, 3 * n <= q -> fst s q = uvw q) /\ (forall r i, r < n -> i < 3 -> fst s (comp r i) = dg_uvw a B uvw r (comp r i)).
  Proof.
    induction n as [|n IH]; intros H.
    - eexists. split; [reflexivity|]. cbn [fst snd]. repeat split; intros; try lia; reflexivity.
    - destruct IH as (s & E & H1 & H2 & H3 & H4); [intros; apply H; lia|]. rewrite rows_S, E. cbn [bind]. rewrite degrid_row_eq.
      destruct (H n) as (v & Hv); [lia|]. rewrite (row_out_local uvw (fst s)) in Hv by (intros q Hq; symmetry; now apply H3). unfold row_out in Hv. rewrite (H2 n) by lia.
      assert (L : forall i, i < 3 -> dg_uvw a B (fst s) n (comp n i) = dg_uvw a B uvw n (comp n i)) by (intros i Hi; unfold dg_uvw; eapply baseline_local; eauto).
      assert (Fr : forall q, q < 3 * n \/ 3 * n + 2 < q -> dg_uvw a B (fst s) n q = fst s q) by (intros q Hq; unfold dg_uvw; eapply baseline_frame; eauto).
      destruct (dg_row npix nchan a wl cm stack gather tc n (dg_uvw a B (fst s) n) (fun _ _ => c0)) as [row|] eqn:Er; [|discriminate]. cbn [bind] in *.
      eexists. split; [reflexivity|]. cbn [fst snd]. split; [|split; [|split]].
      + intros r Hr. destruct (Nat.eqb_spec r n) as [->|Hne]; [|apply H1; lia]. rewrite (row_out_local uvw (fst s)) by (intros q Hq; symmetry; now apply H3). unfold row_out. rewrite Er. reflexivity.
      + intros r Hr. destruct (Nat.eqb_spec r n); [lia|]. apply H2. lia.
      + intros q Hq. rewrite Fr by lia. apply H3. lia.
      + intros r i Hr Hi. destruct (Nat.eq_dec r n) as [->|]; [now apply L|]. rewrite Fr by (unfold comp; lia). apply H4; lia.
  Qed.
  Lemma serial_inv n uvw s : rows_in_order (seq 0 n) drow (uvw, fun _ _ _ => c0) = Ok s -> forall r, r < n -> exists v, row_out uvw r = Ok v.
  Proof.
    revert s. induction n as [|n IH]; intros s; [lia|]. rewrite rows_S. destruct (rows_in_order (seq 0 n) drow (uvw, fun _ _ _ => c0)) as [s1|] eqn:E; [|discriminate]. cbn [bind]. intros H r Hr.
    specialize (IH s1 eq_refl). destruct (serial_run n uvw IH) as (s2 & E2 & _ & H2 & H3 & _). rewrite E in E2. injection E2 as <-.
    destruct (Nat.eq_dec r n) as [->|]; [|apply IH; lia]. rewrite degrid_row_eq, (H2 n) in H by lia.
    rewrite (row_out_local uvw (fst s1)) by (intros q Hq; symmetry; now apply H3). unfold row_out.
    destruct (dg_row npix nchan a wl cm stack gather tc n (dg_uvw a B (fst s1) n) (fun _ _ => c0)); [|discriminate]. eexists. reflexivity.
  Qed.
End Serial.

(* unfolding the whole degridder *)
Lemma degridder_split nrow ucols uvw gb gy gx stack nchan wl ncm cm a v u : degridder_serial nrow ucols uvw gb gy gx stack nchan wl ncm cm a = Ok (v, u) ->
  exists P B nc tc gather nb, phase_policy (phase a) = Ok P /\ baseline_policy (baseline a) = Ok B /\ ncorr_out (stokes_conversion a) = Ok nc /\ stokes2corr_impl (stokes_conversion a) = Ok tc /\
    gather_policy (convolution a) = Ok gather /\ ncm = nchan /\ bands nchan cm = Ok nb /\ gy = gx /\ nb <= gb /\ ucols = 3 /\
    rows_in_order (seq 0 nrow) (degrid_row gy nchan a wl cm stack P B gather tc) (uvw, fun _ _ _ => c0) = Ok (u, v).
Proof.
  unfold degridder_serial, degridder_ordered.
  destruct (phase_policy (phase a)) as [P|]; [|discriminate]. destruct (baseline_policy (baseline a)) as [B|]; [|discriminate].
  destruct (ncorr_out (stokes_conversion a)) as [nc|]; [|discriminate]. destruct (stokes2corr_impl (stokes_conversion a)) as [tc|]; [|discriminate]. destruct (gather_policy (convolution a)) as [gather|]; [|discriminate]. cbn [bind].
  destruct (Nat.eqb_spec ncm nchan); [|discriminate]. cbn [negb]. destruct (bands nchan cm) as [nb|]; [|discriminate]. cbn [bind]. destruct (Nat.eqb_spec gy gx); [|discriminate]. cbn [negb].
  destruct (Nat.ltb_spec gb nb); [discriminate|]. destruct (Nat.eqb_spec ucols 3); [|discriminate]. cbn [negb].
  destruct (rows_in_order (seq 0 nrow) (degrid_row gy nchan a wl cm stack P B gather tc) (uvw, fun _ _ _ => c0)) as [[u' v']|] eqn:E; [|discriminate]. cbn [bind fst snd]. intros H0. injection H0 as <- <-.
  exists P, B, nc, tc, gather, nb. rewrite E. repeat split; auto.
Qed.
Lemma degridder_join nrow uvw gb gy stack nchan wl cm a P B nc tc gather nb s : phase_policy (phase a) = Ok P -> baseline_policy (baseline a) = Ok B -> ncorr_out (stokes_conversion a) = Ok nc -> stokes2corr_impl (stokes_conversion a) = Ok tc ->
  gather_policy (convolution a) = Ok gather -> bands nchan cm = Ok nb -> nb <= gb ->
  rows_in_order (seq 0 nrow) (degrid_row gy nchan a wl cm stack P B gather tc) (uvw, fun _ _ _ => c0) = Ok s ->
  degridder_serial nrow 3 uvw gb gy gy stack nchan wl nchan cm a = Ok (snd s, fst s).
Proof.
  intros H1 H2 H3 H4 H5 H6 H7 H8. unfold degridder_serial, degridder_ordered. rewrite H1, H2, H3, H4, H5, H6. cbn [bind]. rewrite !Nat.eqb_refl. cbn [negb].
  destruct (Nat.ltb_spec gb nb); [lia|]. cbn [Nat.eqb negb]. rewrite H8. reflexivity.
Qed.
(* a block of rows on its own *)
Lemma row_block r0 n nrow ucols uvw gb gy gx stack nchan wl ncm cm a v u : degridder_serial nrow ucols uvw gb gy gx stack nchan wl ncm cm a = Ok (v, u) -> r0 + n <= nrow ->
  exists v1 u1, degridder_serial n ucols (fun i => uvw (3 * r0 + i)) gb gy gx stack nchan wl ncm cm a = Ok (v1, u1) /\ forall r, r < n -> v1 r = v (r0 + r).
Proof.
  intros H Hn. destruct (degridder_split _ _ _ _ _ _ _ _ _ _ _ _ _ _ H) as (P & B & nc & tc & gather & nb & EP & EB & En & Et & Eg & -> & Eb & <- & Hb & -> & Er).
  pose proof (serial_inv gy nchan a wl cm stack P B gather tc EP EB nrow uvw _ Er) as I.
  destruct (serial_run gy nchan a wl cm stack P B gather tc EP EB nrow uvw I) as (s & Es & Hs & _). rewrite Er in Es. injection Es as <-. cbn [snd] in Hs.
  destruct (serial_run gy nchan a wl cm stack P B gather tc EP EB n (fun i => uvw (3 * r0 + i))) as (s1 & Es1 & Hs1 & _).
  { intros r Hr. rewrite row_out_shift by assumption. apply I. lia. }
  exists (snd s1), (fst s1). split; [now apply (degridder_join n _ gb gy stack nchan wl cm a P B nc tc gather nb s1)|].
  intros r Hr. specialize (Hs1 r Hr). rewrite row_out_shift in Hs1 by assumption. rewrite (Hs (r0 + r)) in Hs1 by lia. now injection Hs1 as ->.
Qed.
Section DValue.
  Variables (npix nrow nchan : nat) (a : setup) (wl : arr R) (cm : arr nat) (K : arr R) (W os : nat) (stack : arr3 RC) (gb : nat) (l : list product) (s : stokes).
  Variables (P : nat -> arr2 RC -> arr R -> nat -> arr R -> R -> R -> R -> R -> R -> arr2 RC) (B : arr R -> nat -> R -> R -> R -> R -> arr R).
  Hypothesis EP : phase_policy (phase a) = Ok P.
  Hypothesis EB : baseline_policy (baseline a) = Ok B.
  Hypothesis Hl : In l layouts.
  Hypothesis Hs : contains l s.
  Hypothesis ES : stokes_conversion a = to_name l s.
  Hypothesis EC : convolution a = "conv_1d_axisymmetric_unpacked_gather"%string.
  Hypothesis EK : kern a = kernel_of K W os.
  Hypothesis HW : W mod 2 = 1.
  Hypothesis Ho : 0 < os.
  Lemma degrid_value uvw (du fu dv fv : nat -> nat -> Z) : 0 < nchan -> (forall c, c < nchan -> cm c < gb) ->
    let uvw' r := B uvw r (fst (image_centre a)) (snd (image_centre a)) (fst (phase_centre a)) (snd (phase_centre a)) in
    (forall r c, r < nrow -> c < nchan -> placed os (position npix (grid_coordinate npix (cell a) (wl c) (uvw' r (comp r 0)))) (du r c) (fu r c)) ->
    (forall r c, r < nrow -> c < nchan -> placed os (position npix (grid_coordinate npix (cell a) (wl c) (uvw' r (comp r 1)))) (dv r c) (fv r c)) ->
    exists v u row, degridder_serial nrow 3 uvw gb npix npix stack nchan wl nchan cm a = Ok (v, u) /\
      (forall r, r < nrow -> v r = P nchan (row r) (uvw' r) r wl (fst (phase_centre a)) (snd (phase_centre a)) (fst (image_centre a)) (snd (image_centre a)) (-1)%R) /\
      (forall r c k, r < nrow -> c < nchan -> k < List.length l -> row r c k = cmul (cmul (coeff (nth k l XX) s) (under_kernel K W os npix (du r c) (fu r c) (dv r c) (fv r c) (stack (cm c))))
         (ofR (/ (taps_inside K W os npix (dv r c) (fv r c) * taps_inside K W os npix (du r c) (fu r c) + 1 / 100000000))%R)) /\
      (forall r i, r < nrow -> i < 3 -> u (comp r i) = uvw' r (comp r i)).
  Proof.
    intros Hn Hgb uvw' Pu Pv. destruct (bands_max nchan cm Hn) as (nb & Eb & Hnb & (cb & Hcb & Ecb)).
    destruct (to_correlations l s Hl Hs) as (tc & Et & En & _ & _). rewrite <- ES in Et, En.
    assert (Eg : gather_policy (convolution a) = Ok (convolve_gather unpacked_index)) by (rewrite EC; reflexivity).
    assert (Q : forall r c i, coord npix a wl (dg_uvw a B uvw r) r c i = grid_coordinate npix (cell a) (wl c) (uvw' r (comp r i))).
    { intros r c i. unfold coord. rewrite coordinate_eq. reflexivity. }
    assert (V : forall r c, r < nrow -> c < nchan -> exists v, convolve_gather unpacked_index (coord npix a wl (dg_uvw a B uvw r) r c 0) (coord npix a wl (dg_uvw a B uvw r) r c 1) npix (stack (cm c)) (fun _ => c0) tc (kern a) = Ok v /\
      forall k, k < List.length l -> v k = cmul (cmul (coeff (nth k l XX) s) (under_kernel K W os npix (du r c) (fu r c) (dv r c) (fv r c) (stack (cm c))))
         (ofR (/ (taps_inside K W os npix (dv r c) (fv r c) * taps_inside K W os npix (du r c) (fu r c) + 1 / 100000000))%R)).
    { intros r c Hr Hc. rewrite !Q, EK. rewrite ES in Et. destruct (gather_layout l s tc K W os npix _ _ _ _ _ _ Hl Hs Et HW Ho (Pu r c Hr Hc) (Pv r c Hr Hc) (stack (cm c))) as (v & E & Hv & _). eauto. }
    assert (RO : forall r, r < nrow -> exists row, dg_row npix nchan a wl cm stack (convolve_gather unpacked_index) tc r (dg_uvw a B uvw r) (fun _ _ => c0) = Ok row).
    { intros r Hr. apply dg_row_value. intros c Hc. destruct (V r c Hr Hc) as (v & E & _). eauto. }
    destruct (serial_run npix nchan a wl cm stack P B (convolve_gather unpacked_index) tc EP EB nrow uvw) as (st & Es & Hst & _ & _ & Hu).
    { intros r Hr. destruct (RO r Hr) as (row & Er). unfold row_out. rewrite Er. eexists. reflexivity. }
    exists (snd st), (fst st), (fun r => match dg_row npix nchan a wl cm stack (convolve_gather unpacked_index) tc r (dg_uvw a B uvw r) (fun _ _ => c0) with Ok row => row | Raise _ => fun _ _ => c0 end).
    split; [|split; [|split]].
    - apply (degridder_join nrow uvw gb npix stack nchan wl cm a P B (List.length l) tc (convolve_gather unpacked_index) nb st); auto. specialize (Hgb cb Hcb). lia.
    - intros r Hr. specialize (Hst r Hr). unfold row_out in Hst. destruct (RO r Hr) as (row & Er). rewrite Er in *. cbn [bind] in Hst.
      match type of Hst with Ok ?x = Ok ?y => assert (G : y = x) by congruence; rewrite G end. reflexivity.
    - intros r c k Hr Hc Hk. destruct (RO r Hr) as (row & Er). rewrite Er. destruct (dg_row_value npix nchan a wl cm stack (convolve_gather unpacked_index) tc r (dg_uvw a B uvw r) (fun _ _ => c0)) as (D & _).
      specialize (D row Er c). destruct D as (D & _). specialize (D Hc). destruct (V r c Hr Hc) as (v & E & Hv). rewrite E in D. injection D as <-. now apply Hv.
    - intros r i Hr Hi. now apply Hu.
  Qed.
End DValue.
