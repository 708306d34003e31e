(* the gridder as a sum of contributions of rows and channels *)
From Coq Require Import String Reals Lra FunctionalExtensionality.
From Verif Require Import Prelude PreludeFacts CRing CplxR LoopFacts StokesGridModel FacetModel FacetProofs GridModel GridSpec GridProofs GridProofs2.
Close Scope R_scope.
Open Scope nat_scope.

Notation scatterer := (R -> R -> nat -> arr2 RC -> arr RC -> (arr RC -> RC) -> kernel -> res (arr2 RC * R)).
(* a policy either fails whatever the grid, or adds multiples of the Stokes value to the cells *)
Definition adds (scatter : scatterer) (su sv : R) (npix : nat) (k : kernel) (W : arr2 R) (cw : R) : Prop :=
  forall grid vis S, exists g', scatter su sv npix grid vis S k = Ok (g', cw) /\ forall y x, g' y x = cadd (grid y x) (cmul (ofR (W y x)) (S vis)).
Definition steady (scatter : scatterer) : Prop := forall su sv npix k,
  (exists W cw, adds scatter su sv npix k W cw) \/ (exists e, forall grid vis S, scatter su sv npix grid vis S k = Raise e).

Lemma getitem_cases {A} n (a : arr A) i : (exists x, getitem n a i = Ok x) \/ getitem n a i = Raise IndexError.
Proof.
  unfold getitem, index_of. destruct ((0 <=? i)%Z && (i <? Z.of_nat n)%Z); [left; eexists; reflexivity|].
  destruct ((- Z.of_nat n <=? i)%Z && (i <? 0)%Z); [left; eexists; reflexivity|right; reflexivity].
Qed.
Lemma all_or_one (f : nat -> res R) n : (forall t, (exists x, f t = Ok x) \/ f t = Raise IndexError) ->
  (exists g, forall t, t < n -> f t = Ok (g t)) \/ (exists t, t < n /\ f t = Raise IndexError).
Proof.
  intros H. induction n as [|n IH].
  - left. exists (fun _ => 0%R). lia.
  - destruct IH as [(g & Hg)|(t & Ht & Et)]; [|right; exists t; auto].
    destruct (H n) as [(x & Ex)|E]; [|right; exists n; auto]. left. exists (fun t => if t =? n then x else g t).
    intros t Ht. destruct (Nat.eqb_spec t n) as [->|]; [exact Ex|apply Hg; lia].
Qed.
Lemma forM_cases {T} n (body : nat -> T -> res T) e s : (forall i s, i < n -> (exists s', body i s = Ok s') \/ body i s = Raise e) ->
  (exists s', forM n body s = Ok s') \/ forM n body s = Raise e.
Proof.
  induction n as [|n IH]; intros H; [left; eexists; reflexivity|]. cbn [forM]. destruct IH as [(s1 & ->)| ->]; [intros; apply H; lia| |right; reflexivity].
  cbn [bind]. apply H. lia.
Qed.
Lemma convolve_steady index : steady (convolve_scatter index).
Proof.
  intros su sv npix k.
  destruct (all_or_one (fun t => getitem (nsamples k) (samples k) (index k (fraction npix su (oversampling k)) t)) (width k)) as [(ku & Hu)|(tu & Htu & Eu)]; [intros; apply getitem_cases| |].
  1: destruct (all_or_one (fun t => getitem (nsamples k) (samples k) (index k (fraction npix sv (oversampling k)) t)) (width k)) as [(kv & Hv)|(tv & Htv & Ev)]; [intros; apply getitem_cases| |].
  - left. eexists _, _. intros grid vis S. destruct (scatter_form index su sv npix k ku kv Hu Hv grid vis S) as (g' & cw & E & Hg & Hc). exists g'. rewrite E. split; [f_equal; f_equal; exact Hc|exact Hg].
  - right. exists IndexError. intros grid vis S. unfold convolve_scatter. apply (forM_raise _ _ _ tv); [exact Htv| |].
    + intros s. rewrite Ev. reflexivity.
    + intros i s Hi. destruct (getitem_cases (nsamples k) (samples k) (index k (fraction npix sv (oversampling k)) i)) as [(x & ->)| ->]; [|right; reflexivity]. cbn [bind].
      apply forM_cases. intros j s' Hj. destruct (getitem_cases (nsamples k) (samples k) (index k (fraction npix su (oversampling k)) j)) as [(z & ->)| ->]; [left; eexists; reflexivity|right; reflexivity].
  - right. exists IndexError. intros grid vis S. unfold convolve_scatter.
    assert (B : forall i s, i < width k -> (exists x, getitem (nsamples k) (samples k) (index k (fraction npix sv (oversampling k)) i) = Ok x) ->
       forall b, b = (do! conv_v <- getitem (nsamples k) (samples k) (index k (fraction npix sv (oversampling k)) i);
         let grid_v_lookup := (discrete npix sv + Z.of_nat i - Z.of_nat (width k / 2))%Z in
         forM (width k) (fun tu gc =>
           do! conv_u <- getitem (nsamples k) (samples k) (index k (fraction npix su (oversampling k)) tu);
           let grid_u_lookup := (discrete npix su + Z.of_nat tu - Z.of_nat (width k / 2))%Z in
           let grid := fst gc in
           let grid := if inside npix grid_v_lookup && inside npix grid_u_lookup
             then upd2 grid (Z.to_nat grid_v_lookup) (Z.to_nat grid_u_lookup)
               (cadd (grid (Z.to_nat grid_v_lookup) (Z.to_nat grid_u_lookup)) (cmul (ofR (conv_v * conv_u)%R) (S vis)))
             else grid in
           Ok (grid, (snd gc + conv_v * conv_u)%R)) s) -> b = Raise IndexError).
    { intros i s Hi (x & Ex) b ->. rewrite Ex. cbn [bind]. apply (forM_raise _ _ _ tu); [exact Htu| |].
      - intros s'. rewrite Eu. reflexivity.
      - intros j s' Hj. destruct (getitem_cases (nsamples k) (samples k) (index k (fraction npix su (oversampling k)) j)) as [(z & ->)| ->]; [left; eexists; reflexivity|right; reflexivity]. }
    apply (forM_raise _ _ _ tu); [exact Htu| |].
    + intros s. destruct (getitem_cases (nsamples k) (samples k) (index k (fraction npix sv (oversampling k)) tu)) as [E|E]; [now apply (B tu s Htu E)|rewrite E; reflexivity].
    + intros i s Hi. right. destruct (getitem_cases (nsamples k) (samples k) (index k (fraction npix sv (oversampling k)) i)) as [E|E]; [now apply (B i s Hi E)|rewrite E; reflexivity].
Qed.
Lemma nn_steady : steady (fun u v n g x f _ => convolve_nn_scatter u v n g x f).
Proof.
  intros su sv npix k. unfold convolve_nn_scatter.
  destruct (index_of npix (discrete npix sv)) as [v|e] eqn:Ev; cbn [bind]; [|right; exists e; reflexivity].
  destruct (index_of npix (discrete npix su)) as [u|e] eqn:Eu; cbn [bind]; [|right; exists e; reflexivity].
  left. exists (fun y x => if (y =? v) && (x =? u) then 1%R else 0%R), 1%R. intros grid vis S. unfold convolve_nn_scatter. rewrite Ev, Eu. cbn [bind]. eexists. split; [reflexivity|].
  intros y x. unfold upd2. destruct (Nat.eqb_spec y v) as [->|], (Nat.eqb_spec x u) as [->|]; cbn [andb]; generalize (S vis); intros [a b]; unfold ofR; apply injective_projections; cbn; ring.
Qed.
Lemma policy_steady p scatter : scatter_policy p = Ok scatter -> steady scatter.
Proof.
  unfold scatter_policy. destruct (p =? _)%string; [intros H; injection H as <-; apply convolve_steady|].
  destruct (p =? _)%string; [intros H; injection H as <-; apply nn_steady|].
  destruct (p =? _)%string; [intros H; injection H as <-; apply convolve_steady|].
  destruct (_ || _); discriminate.
Qed.

Section Rows.
  Variables (npix nchan : nat) (a : setup) (wavelengths : arr R) (chanmap : arr nat).
  Variables (rotate_phase : nat -> arr2 RC -> arr R -> nat -> arr R -> R -> R -> R -> R -> R -> arr2 RC).
  Variables (rotate_uvw : arr R -> nat -> R -> R -> R -> R -> arr R) (scatter : scatterer) (S : arr RC -> RC).
  Hypothesis St : steady scatter.
  Definition contribution (su sv : R) (v : arr RC) : arr2 RC :=
    match scatter su sv npix (fun _ _ => c0) v S (kern a) with Ok (g, _) => g | Raise _ => fun _ _ => c0 end.
  Definition weight (su sv : R) : R :=
    match scatter su sv npix (fun _ _ => c0) (fun _ => c0) S (kern a) with Ok (_, w) => w | Raise _ => 0%R end.
  Definition fine (su sv : R) : Prop := exists gw, scatter su sv npix (fun _ _ => c0) (fun _ => c0) S (kern a) = Ok gw.
  Lemma steady_fine su sv grid v : fine su sv -> scatter su sv npix grid v S (kern a) = Ok (fun y x => cadd (grid y x) (contribution su sv v y x), weight su sv).
  Proof.
    intros (gw & E). destruct (St su sv npix (kern a)) as [(W & cw & A)|(e & A)]; [|rewrite A in E; discriminate].
    unfold contribution, weight. destruct (A (fun _ _ => c0) (fun _ => c0) S) as (g0 & E0 & _). destruct (A (fun _ _ => c0) v S) as (g1 & E1 & H1). destruct (A grid v S) as (g2 & E2 & H2).
    rewrite E0, E1, E2. do 2 f_equal. extensionality y. extensionality x. rewrite H1, H2. generalize (cmul (ofR (W y x)) (S v)) (grid y x). intros [p q] [z w]. apply injective_projections; cbn; ring.
  Qed.
  Lemma fine_ok su sv grid v gw : scatter su sv npix grid v S (kern a) = Ok gw -> fine su sv.
  Proof.
    intros E. destruct (St su sv npix (kern a)) as [(W & cw & A)|(e & A)]; [|rewrite A in E; discriminate].
    destruct (A (fun _ _ => c0) (fun _ => c0) S) as (g0 & E0 & _). unfold fine. rewrite E0. eauto.
  Qed.
  (* contributions are linear in the Stokes value *)
  Lemma contribution_linear su sv v w u x1 x2 : S u = cadd (cmul x1 (S v)) (cmul x2 (S w)) ->
    forall y x, contribution su sv u y x = cadd (cmul x1 (contribution su sv v y x)) (cmul x2 (contribution su sv w y x)).
  Proof.
    intros Hu y x. unfold contribution. destruct (St su sv npix (kern a)) as [(W & cw & A)|(e & A)].
    - destruct (A (fun _ _ => c0) u S) as (g0 & E0 & H0). destruct (A (fun _ _ => c0) v S) as (g1 & E1 & H1). destruct (A (fun _ _ => c0) w S) as (g2 & E2 & H2).
      rewrite E0, E1, E2, H0, H1, H2, Hu. generalize (S v) (S w). destruct x1, x2. intros [p q] [z t]. unfold ofR. apply injective_projections; cbn; ring.
    - rewrite !A. destruct x1, x2. apply injective_projections; cbn; ring.
  Qed.

  Definition after_uvw (uvw : arr R) (r : nat) : arr R := rotate_uvw uvw r (fst (phase_centre a)) (snd (phase_centre a)) (fst (image_centre a)) (snd (image_centre a)).
  Definition after_vis (vis : arr2 RC) (uvw : arr R) (r : nat) : arr2 RC :=
    rotate_phase nchan vis uvw r wavelengths (fst (phase_centre a)) (snd (phase_centre a)) (fst (image_centre a)) (snd (image_centre a)) 1%R.
  Definition coord (uvw : arr R) (r c i : nat) : R := (uvw (comp r i) * scale_factor npix (cell a) / wavelengths c)%R.
  (* what row r adds to band b, given the row's visibilities and the memory of uvw before the row *)
  Definition row_cell (vis : arr2 RC) (uvw : arr R) (r b y x : nat) : RC :=
    csum nchan (fun c => if chanmap c =? b then contribution (coord (after_uvw uvw r) r c 0) (coord (after_uvw uvw r) r c 1) (after_vis vis uvw r c) y x else c0).
  Definition row_weight (uvw : arr R) (r b : nat) : R :=
    csum (K := RR) nchan (fun c => if chanmap c =? b then weight (coord (after_uvw uvw r) r c 0) (coord (after_uvw uvw r) r c 1) else 0%R).
  Definition row_fine (uvw : arr R) (r : nat) : Prop :=
    forall c, c < nchan -> fine (coord (after_uvw uvw r) r c 0) (coord (after_uvw uvw r) r c 1).
  Notation grow := (grid_row npix nchan a wavelengths chanmap rotate_phase rotate_uvw scatter S).
  Lemma row_value r s : row_fine (s_uvw s) r -> exists s', grow r s = Ok s' /\ s_uvw s' = after_uvw (s_uvw s) r /\
    (forall r', s_vis s' r' = if r' =? r then after_vis (s_vis s r) (s_uvw s) r else s_vis s r') /\
    (forall b y x, s_stack s' b y x = cadd (s_stack s b y x) (row_cell (s_vis s r) (s_uvw s) r b y x)) /\
    (forall b, s_wt s' b = (s_wt s b + row_weight (s_uvw s) r b)%R).
  Proof.
    intros F. unfold grid_row. fold (after_uvw (s_uvw s) r).
    assert (PC : forall A (f : R -> R -> A), (let '(p, q) := phase_centre a in f p q) = f (fst (phase_centre a)) (snd (phase_centre a))) by (intros; destruct (phase_centre a); reflexivity).
    assert (IC : forall A (f : R -> R -> A), (let '(p, q) := image_centre a in f p q) = f (fst (image_centre a)) (snd (image_centre a))) by (intros; destruct (image_centre a); reflexivity).
    rewrite PC, IC. fold (after_uvw (s_uvw s) r) (after_vis (s_vis s r) (s_uvw s) r). cbv zeta.
    set (uvw := after_uvw (s_uvw s) r) in *. set (row := after_vis (s_vis s r) (s_uvw s) r) in *.
    set (vis := fun r' => if r' =? r then row else s_vis s r').
    set (body := fun c (st : gstate) => {| s_uvw := s_uvw st; s_vis := s_vis st;
       s_stack := fun b => if b =? chanmap c then (fun y x => cadd (s_stack st (chanmap c) y x) (contribution (coord uvw r c 0) (coord uvw r c 1) (row c) y x)) else s_stack st b;
       s_wt := upd (s_wt st) (chanmap c) (s_wt st (chanmap c) + weight (coord uvw r c 0) (coord uvw r c 1))%R |}).
    set (s0 := {| s_uvw := uvw; s_vis := vis; s_stack := s_stack s; s_wt := s_wt s |}).
    match goal with |- context [forM nchan ?b _] => set (lb := b) end.
    assert (Inv : forall n, n <= nchan -> forM n lb s0 = Ok (for_ n body s0) /\ s_uvw (for_ n body s0) = uvw /\ s_vis (for_ n body s0) = vis).
    { induction n as [|n IH]; intros Hn; [repeat split|]. destruct IH as (E & Hu & Hv); [lia|]. cbn [forM]. rewrite E. cbn [bind]. unfold lb at 1. rewrite Hu, Hv.
      fold (coord uvw r n 0) (coord uvw r n 1). rewrite (steady_fine _ _ _ _ (F n ltac:(lia))). cbn [bind]. rewrite for_S. split; [|split; [exact Hu|exact Hv]].
      assert (vis r = row) as -> by (unfold vis; now rewrite Nat.eqb_refl). clear E. set (st := for_ n body s0) in *. clearbody st. unfold body. now rewrite Hu, Hv. }
    destruct (Inv nchan (le_n _)) as (E & Hu & Hv). exists (for_ nchan body s0). split; [exact E|]. split; [exact Hu|]. split; [intros r'; now rewrite Hv|]. split.
    - intros b y x. rewrite (for_csum RC_laws (fun st => s_stack st b y x) (fun c => if chanmap c =? b then contribution (coord uvw r c 0) (coord uvw r c 1) (row c) y x else c0)); [reflexivity|].
      intros c st Hc. unfold body. cbn [s_stack]. rewrite (Nat.eqb_sym b). destruct (Nat.eqb_spec (chanmap c) b) as [->|]; [reflexivity|]. apply injective_projections; cbn; ring.
    - intros b. rewrite (for_csum RR_laws (fun st => s_wt st b : RR) (fun c => if chanmap c =? b then weight (coord uvw r c 0) (coord uvw r c 1) else 0%R)); [reflexivity|].
      intros c st Hc. unfold body. cbn [s_wt]. destruct (Nat.eqb_spec (chanmap c) b) as [->|Hb]; [now rewrite upd_eq|]. rewrite upd_neq by congruence. cbn. ring.
  Qed.
  Lemma row_ok r s s' : grow r s = Ok s' -> row_fine (s_uvw s) r.
  Proof.
    unfold grid_row.
    assert (PC : forall A (f : R -> R -> A), (let '(p, q) := phase_centre a in f p q) = f (fst (phase_centre a)) (snd (phase_centre a))) by (intros; destruct (phase_centre a); reflexivity).
    assert (IC : forall A (f : R -> R -> A), (let '(p, q) := image_centre a in f p q) = f (fst (image_centre a)) (snd (image_centre a))) by (intros; destruct (image_centre a); reflexivity).
    rewrite PC, IC. fold (after_uvw (s_uvw s) r) (after_vis (s_vis s r) (s_uvw s) r). cbv zeta. set (uvw := after_uvw (s_uvw s) r) in *.
    unfold row_fine. fold uvw. revert s'.
    match goal with |- context [forM nchan ?b ?s0] => set (body := b); set (s1 := s0) end.
    assert (Inv : forall n s', n <= nchan -> forM n body s1 = Ok s' -> s_uvw s' = uvw /\ forall c, c < n -> fine (coord uvw r c 0) (coord uvw r c 1)).
    { induction n as [|n IH]; intros s' Hn; [intros H; injection H as <-; split; [reflexivity|lia]|]. cbn [forM]. destruct (forM n body s1) as [s2|] eqn:E2; [|discriminate]. cbn [bind]. intros H.
      destruct (IH s2) as (Hu & Hf); [lia|reflexivity|]. unfold body in H. rewrite Hu in H. fold (coord uvw r n 0) (coord uvw r n 1) in H.
      destruct (scatter (coord uvw r n 0) (coord uvw r n 1) npix (s_stack s2 (chanmap n)) (s_vis s2 r n) S (kern a)) as [[g w]|] eqn:Es; [|discriminate]. cbn [bind] in H. injection H as <-. cbn [s_uvw]. split; [reflexivity|].
      intros c Hc. destruct (Nat.eq_dec c n) as [->|]; [eapply fine_ok; exact Es|apply Hf; lia]. }
    intros s' H. apply (Inv nchan s' (le_n _) H).
  Qed.
  (* all rows: the memory of uvw before row r only matters from row r on *)
  Hypothesis local : forall m m' r, (forall q, 3 * r <= q -> m q = m' q) -> forall i, i < 3 -> after_uvw m r (comp r i) = after_uvw m' r (comp r i).
  Hypothesis frame : forall m r q, q < 3 * r \/ 3 * r + 2 < q -> after_uvw m r q = m q.
  Hypothesis phase_local : forall v m m' r, (forall i, i < 3 -> m (comp r i) = m' (comp r i)) -> after_vis v m r = after_vis v m' r.
  Lemma coord_local m m' r c i : (forall q, 3 * r <= q -> m q = m' q) -> i < 3 -> coord (after_uvw m r) r c i = coord (after_uvw m' r) r c i.
  Proof. intros H Hi. unfold coord. now rewrite (local m m' r H i Hi). Qed.
  Lemma row_cell_local v m m' r b y x : (forall q, 3 * r <= q -> m q = m' q) -> row_cell v m r b y x = row_cell v m' r b y x.
  Proof.
    intros H. unfold row_cell. apply csum_ext. intros c _. rewrite !(coord_local m m' r c) by (auto; lia).
    rewrite (phase_local v m m' r) by (intros i Hi; apply H; unfold comp; lia). reflexivity.
  Qed.
  Lemma row_weight_local m m' r b : (forall q, 3 * r <= q -> m q = m' q) -> row_weight m r b = row_weight m' r b.
  Proof. intros H. unfold row_weight. apply (csum_ext (K := RR)). intros c _. now rewrite !(coord_local m m' r c) by (auto; lia). Qed.
  Lemma row_fine_local m m' r : (forall q, 3 * r <= q -> m q = m' q) -> row_fine m r -> row_fine m' r.
  Proof. intros H F c Hc. specialize (F c Hc). now rewrite !(coord_local m m' r c) in F by (auto; lia). Qed.
  Lemma rows_value nrow uvw vis stack wt : (forall r, r < nrow -> row_fine uvw r) ->
    exists s', forM nrow grow {| s_uvw := uvw; s_vis := vis; s_stack := stack; s_wt := wt |} = Ok s' /\
      (forall r i, i < 3 -> s_uvw s' (comp r i) = if r <? nrow then after_uvw uvw r (comp r i) else uvw (comp r i)) /\
      (forall q, 3 * nrow <= q -> s_uvw s' q = uvw q) /\
      (forall r, s_vis s' r = if r <? nrow then after_vis (vis r) uvw r else vis r) /\
      (forall b y x, s_stack s' b y x = cadd (stack b y x) (csum nrow (fun r => row_cell (vis r) uvw r b y x))) /\
      (forall b, s_wt s' b = (wt b + csum (K := RR) nrow (fun r => row_weight uvw r b))%R).
  Proof.
    induction nrow as [|n IH]; intros F.
    - eexists. split; [reflexivity|]. cbn [s_uvw s_vis s_stack s_wt csum]. repeat split; intros; try reflexivity; [apply injective_projections; cbn; ring|cbn; ring].
    - destruct IH as (s & E & Hu & Hq & Hv & Hst & Hw); [intros; apply F; lia|]. cbn [forM]. rewrite E. cbn [bind].
      assert (L : forall q, 3 * n <= q -> uvw q = s_uvw s q) by (intros q H; symmetry; now apply Hq).
      destruct (row_value n s) as (s' & E' & Hu' & Hv' & Hst' & Hw'); [eapply row_fine_local; [exact L|apply F; lia]|].
      exists s'. split; [exact E'|]. rewrite Hu'. assert (V : s_vis s n = vis n) by (rewrite Hv; destruct (Nat.ltb_spec n n); [lia|reflexivity]).
      split; [|split; [|split; [|split]]].
      + intros r i Hi. destruct (Nat.eq_dec r n) as [->|Hr].
        * destruct (Nat.ltb_spec n (Datatypes.S n)); [|lia]. apply local; [intros q H1; symmetry; now apply L|exact Hi].
        * rewrite frame by (unfold comp; lia). rewrite Hu by exact Hi. destruct (Nat.ltb_spec r n), (Nat.ltb_spec r (Datatypes.S n)); try lia; reflexivity.
      + intros q H. rewrite frame by lia. apply Hq. lia.
      + intros r. rewrite Hv'. destruct (Nat.eqb_spec r n) as [->|Hr].
        * destruct (Nat.ltb_spec n (Datatypes.S n)); [|lia]. rewrite V. apply phase_local. intros i Hi. symmetry. apply L. unfold comp. lia.
        * rewrite Hv. destruct (Nat.ltb_spec r n), (Nat.ltb_spec r (Datatypes.S n)); try lia; reflexivity.
      + intros b y x. rewrite Hst', Hst, V. cbn [csum]. rewrite (row_cell_local (vis n) (s_uvw s) uvw n b y x) by (intros q H; symmetry; now apply L).
        generalize (stack b y x) (csum n (fun r => row_cell (vis r) uvw r b y x)) (row_cell (vis n) uvw n b y x). intros [p q] [z t] [u w]. apply injective_projections; cbn; ring.
      + intros b. rewrite Hw', Hw. cbn [csum]. rewrite (row_weight_local (s_uvw s) uvw n b) by (intros q H; symmetry; now apply L). cbn. ring.
  Qed.
  Lemma rows_ok nrow uvw vis stack wt s' : forM nrow grow {| s_uvw := uvw; s_vis := vis; s_stack := stack; s_wt := wt |} = Ok s' -> forall r, r < nrow -> row_fine uvw r.
  Proof.
    revert s'. induction nrow as [|n IH]; intros s'; [lia|]. cbn [forM]. destruct (forM n grow _) as [s|] eqn:E; [|discriminate]. cbn [bind]. intros H.
    specialize (IH s eq_refl). destruct (rows_value n uvw vis stack wt IH) as (s2 & E2 & _ & Hq & _). rewrite E in E2. injection E2 as <-.
    intros r Hr. destruct (Nat.eq_dec r n) as [->|]; [|apply IH; lia]. apply row_ok in H. eapply row_fine_local; [|exact H]. exact Hq.
  Qed.
End Rows.
