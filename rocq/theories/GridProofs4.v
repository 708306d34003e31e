(* the gridder: values, linearity, additivity *)
From Coq Require Import String Reals Lra FunctionalExtensionality.
From Verif Require Import Prelude PreludeFacts CRing CplxR LoopFacts StokesGridModel StokesGridSpec StokesGridProofs FacetModel FacetProofs GridModel GridSpec GridProofs GridProofs2 GridProofs3.
Close Scope R_scope.
Open Scope nat_scope.

Section Policies.
  Variables (ra0 dec0 ra dec : R).
  Lemma baseline_local p B m m' r i : baseline_policy p = Ok B -> (forall q, 3 * r <= q -> m q = m' q) -> i < 3 ->
    B m r ra0 dec0 ra dec (comp r i) = B m' r ra0 dec0 ra dec (comp r i).
  Proof.
    intros E H Hi. unfold baseline_policy in E.
    assert (H0 := H (comp r 0) ltac:(unfold comp; lia)). assert (H1 := H (comp r 1) ltac:(unfold comp; lia)).
    assert (H2 := H (comp r 2) ltac:(unfold comp; lia)). assert (H3 := H (comp r 3) ltac:(unfold comp; lia)).
    destruct (p =? _)%string; [injection E as <-; apply H; unfold comp; lia|]. destruct (p =? _)%string; [|destruct (p =? _)%string; [|discriminate]]; injection E as <-.
    - unfold uvw_rotate, upd, comp in *. do 3 (destruct i as [|i]; [repeat match goal with |- context [?u =? ?v] => destruct (Nat.eqb_spec u v); try lia end; congruence|]). lia.
    - unfold uvw_planarwapprox, upd, comp in *. do 3 (destruct i as [|i]; [repeat match goal with |- context [?u =? ?v] => destruct (Nat.eqb_spec u v); try lia end; congruence|]). lia.
  Qed.
  Lemma baseline_frame p B m r q : baseline_policy p = Ok B -> q < 3 * r \/ 3 * r + 2 < q -> B m r ra0 dec0 ra dec q = m q.
  Proof.
    intros E H. unfold baseline_policy in E.
    destruct (p =? _)%string; [injection E as <-; reflexivity|]. destruct (p =? _)%string; [injection E as <-; now apply rotate_frame|].
    destruct (p =? _)%string; [|discriminate]. injection E as <-. apply planar_frame. lia.
  Qed.
  Lemma baseline_shift p B m n r : baseline_policy p = Ok B -> B (fun q => m (3 * n + q)) r ra0 dec0 ra dec = fun q => B m (n + r) ra0 dec0 ra dec (3 * n + q).
  Proof.
    intros E. unfold baseline_policy in E. extensionality q.
    assert (C : forall i, comp (n + r) i = 3 * n + comp r i) by (intros; unfold comp; lia).
    assert (Q : forall i, (3 * n + q =? 3 * n + comp r i) = (q =? comp r i)) by (intros i; destruct (Nat.eqb_spec q (comp r i)), (Nat.eqb_spec (3 * n + q) (3 * n + comp r i)); try lia; reflexivity).
    assert (Q2 : forall i j, (3 * n + comp r j =? 3 * n + comp r i) = (comp r j =? comp r i)) by (intros i j; destruct (Nat.eqb_spec (comp r j) (comp r i)), (Nat.eqb_spec (3 * n + comp r j) (3 * n + comp r i)); try lia; reflexivity).
    destruct (p =? _)%string; [injection E as <-; reflexivity|]. destruct (p =? _)%string; [|destruct (p =? _)%string; [|discriminate]]; injection E as <-.
    - unfold uvw_rotate, upd. rewrite !C, !Q, !Q2. reflexivity.
    - unfold uvw_planarwapprox, upd. rewrite !C, !Q, !Q2. reflexivity.
  Qed.
  Lemma phase_depends p P nchan v m m' r wl s : phase_policy p = Ok P -> (forall i, i < 3 -> m (comp r i) = m' (comp r i)) ->
    P nchan v m r wl ra0 dec0 ra dec s = P nchan v m' r wl ra0 dec0 ra dec s.
  Proof.
    intros E H. destruct p as [p|]; [|injection E as <-; reflexivity]. cbn in E. destruct (p =? _)%string; [injection E as <-; reflexivity|]. destruct (p =? _)%string; [|discriminate]. injection E as <-.
    unfold phase_rotate. rewrite !H by lia. reflexivity.
  Qed.
  Lemma phase_shift p P nchan v m n r wl s : phase_policy p = Ok P -> P nchan v (fun q => m (3 * n + q)) r wl ra0 dec0 ra dec s = P nchan v m (n + r) wl ra0 dec0 ra dec s.
  Proof.
    intros E. assert (C : forall i, 3 * n + comp r i = comp (n + r) i) by (intros; unfold comp; lia).
    destruct p as [p|]; [|injection E as <-; reflexivity]. cbn in E. destruct (p =? _)%string; [injection E as <-; reflexivity|]. destruct (p =? _)%string; [|discriminate]. injection E as <-.
    unfold phase_rotate. rewrite !C. reflexivity.
  Qed.
  Lemma phase_linear p P nchan (v w u : arr2 RC) m r wl s x1 x2 : phase_policy p = Ok P -> (forall c k, u c k = cadd (cmul x1 (v c k)) (cmul x2 (w c k))) ->
    forall c k, P nchan u m r wl ra0 dec0 ra dec s c k = cadd (cmul x1 (P nchan v m r wl ra0 dec0 ra dec s c k)) (cmul x2 (P nchan w m r wl ra0 dec0 ra dec s c k)).
  Proof.
    intros E H c k. destruct p as [p|]; [|injection E as <-; apply H]. cbn in E. destruct (p =? _)%string; [injection E as <-; apply H|]. destruct (p =? _)%string; [|discriminate]. injection E as <-.
    rewrite !phase_rotate_at. destruct (c <? nchan); [|apply H]. rewrite H. generalize (v c k) (w c k) (cis (s * 2 * PI * turns_of m r ra0 dec0 ra dec / wl c)).
    destruct x1, x2. intros [e f] [g h] [i j]. apply injective_projections; cbn; ring.
  Qed.
End Policies.
Lemma stokes_linear p n S (u v w : arr RC) x1 x2 : corr2stokes p n = Ok S -> (forall k, u k = cadd (cmul x1 (v k)) (cmul x2 (w k))) ->
  S u = cadd (cmul x1 (S v)) (cmul x2 (S w)).
Proof.
  intros E H. unfold corr2stokes in E. destruct (corr2stokes_impl p) as [[m f]|] eqn:Ei; [|discriminate]. cbn [bind] in E. destruct (n <? m); [discriminate|]. injection E as <-.
  unfold corr2stokes_impl in Ei.
  repeat (destruct (p =? _)%string;
    [assert (X : f = f) by reflexivity; injection Ei as _ <-; rewrite !H; destruct x1, x2, (v 0), (v 1), (v 2), (v 3), (w 0), (w 1), (w 2), (w 3); unfold half, mj, pj; apply injective_projections; cbn; lra|]).
  discriminate.
Qed.

Section Whole.
  Variables (npix nchan ncorr : nat) (a : setup) (wl : arr R) (cm : arr nat).
  Variables (P : nat -> arr2 RC -> arr R -> nat -> arr R -> R -> R -> R -> R -> R -> arr2 RC) (B : arr R -> nat -> R -> R -> R -> R -> arr R) (S : arr RC -> RC) (sc : scatterer).
  Hypothesis EP : phase_policy (phase a) = Ok P.
  Hypothesis EB : baseline_policy (baseline a) = Ok B.
  Hypothesis ES : corr2stokes (stokes_conversion a) ncorr = Ok S.
  Hypothesis EC : scatter_policy (convolution a) = Ok sc.
  Notation cellsum nrow vis uvw b y x := (csum nrow (fun r => row_cell npix nchan a wl cm P B sc S (vis r) uvw r b y x)).
  Notation wsum nrow uvw b := (csum (K := RR) nrow (fun r => row_weight npix nchan a wl cm B sc S uvw r b)).
  Notation okrow uvw r := (row_fine npix nchan a wl B sc S uvw r).
  Definition normal (dn : bool) (nband b : nat) (w : R) : RC := if dn && (b <? nband) then ofR (/ (w + 1 / 100000000))%R else c1.
  Lemma gridder_run nrow nband uvw vis dn : bands nchan cm = Ok nband -> (forall r, r < nrow -> okrow uvw r) ->
    exists g u v, gridder nrow 3 uvw nrow nchan ncorr vis nchan wl nchan cm npix a dn = Ok (g, (u, v)) /\
      (forall b y x, g b y x = cmul (cellsum nrow vis uvw b y x) (normal dn nband b (wsum nrow uvw b))) /\
      (forall r i, i < 3 -> u (comp r i) = if r <? nrow then after_uvw a B uvw r (comp r i) else uvw (comp r i)) /\
      (forall r, v r = if r <? nrow then after_vis nchan a wl P (vis r) uvw r else vis r).
  Proof.
    intros Hb F. unfold gridder. rewrite EP, EB, ES, EC, Hb. cbn [bind]. rewrite !Nat.eqb_refl. cbn [negb Nat.eqb].
    destruct (rows_value npix nchan a wl cm P B sc S (policy_steady _ _ EC)) with (nrow := nrow) (uvw := uvw) (vis := vis) (stack := fun _ _ _ : nat => c0 (c := RC)) (wt := fun _ : nat => 0%R)
      as (s & E & Hu & _ & Hv & Hs & Hw).
    - intros m m' r H i Hi. unfold after_uvw. eapply baseline_local; eauto.
    - intros m r q H. unfold after_uvw. eapply baseline_frame; eauto.
    - intros v m m' r H. unfold after_vis. eapply phase_depends; eauto.
    - exact F.
    - rewrite E. cbn [bind]. eexists _, _, _. split; [reflexivity|]. split; [|split; [exact Hu|exact Hv]].
      intros b y x. unfold normal. destruct dn; cbn [andb].
      + destruct (Nat.ltb_spec b nband) as [Hbb|Hbb].
        * rewrite (for_at (fun st : arr3 RC => st b y x) (fun z => cmul z (ofR (/ (s_wt s b + 1 / 100000000))%R)) b nband).
          -- rewrite Hs, Hw. f_equal; [apply injective_projections; cbn; ring|]. do 3 f_equal. cbn. ring.
          -- exact Hbb.
          -- intros i st Hi Hne. destruct (Nat.eqb_spec b i); [congruence|reflexivity].
          -- intros st. now rewrite Nat.eqb_refl.
        * rewrite (for_frame (fun st : arr3 RC => st b y x)); [rewrite Hs; apply injective_projections; cbn; ring|].
          intros i st Hi. destruct (Nat.eqb_spec b i); [lia|reflexivity].
      + rewrite Hs. apply injective_projections; cbn; ring.
  Qed.
  Lemma gridder_inv nuvw ucols uvw nrow nvc vis ncm dn gu : gridder nuvw ucols uvw nrow nvc ncorr vis nchan wl ncm cm npix a dn = Ok gu ->
    ncm = nchan /\ ucols = 3 /\ nuvw = nrow /\ nvc = nchan /\ (exists nband, bands nchan cm = Ok nband) /\ forall r, r < nrow -> okrow uvw r.
  Proof.
    unfold gridder. rewrite EP, EB, ES, EC. cbn [bind]. destruct (Nat.eqb_spec ncm nchan); [|discriminate]. cbn [negb]. destruct (bands nchan cm) as [nb|]; [|discriminate]. cbn [bind].
    destruct (Nat.eqb_spec ucols 3); [|discriminate]. cbn [negb]. destruct (Nat.eqb_spec nuvw nrow); [|discriminate]. cbn [negb]. destruct (Nat.eqb_spec nvc nchan); [|discriminate]. cbn [negb].
    destruct (forM nrow _ _) as [s|] eqn:E; [|discriminate]. intros _. repeat (split; [assumption|]). split; [eauto|].
    eapply (rows_ok npix nchan a wl cm P B sc S (policy_steady _ _ EC)); [| | |exact E].
    - intros m m' r H i Hi. unfold after_uvw. eapply baseline_local; eauto.
    - intros m r q H. unfold after_uvw. eapply baseline_frame; eauto.
    - intros v m m' r H. unfold after_vis. eapply phase_depends; eauto.
  Qed.
  (* rows n, n + 1, ... of the memory, seen as rows 0, 1, ... *)
  Lemma after_shift m n r i : after_uvw a B (fun q => m (3 * n + q)) r (comp r i) = after_uvw a B m (n + r) (comp (n + r) i).
  Proof. unfold after_uvw. rewrite (baseline_shift _ _ _ _ _ _ m n r EB). f_equal. unfold comp. lia. Qed.
  Lemma coord_shift m n r c i : coord npix a wl (after_uvw a B (fun q => m (3 * n + q)) r) r c i = coord npix a wl (after_uvw a B m (n + r)) (n + r) c i.
  Proof. unfold coord. now rewrite after_shift. Qed.
  Lemma vis_shift v m n r : after_vis nchan a wl P v (fun q => m (3 * n + q)) r = after_vis nchan a wl P v m (n + r).
  Proof. unfold after_vis. eapply phase_shift; eauto. Qed.
  Lemma cell_shift v m n r b y x : row_cell npix nchan a wl cm P B sc S v (fun q => m (3 * n + q)) r b y x = row_cell npix nchan a wl cm P B sc S v m (n + r) b y x.
  Proof. unfold row_cell. apply csum_ext. intros c _. now rewrite !coord_shift, vis_shift. Qed.
  Lemma weight_shift m n r b : row_weight npix nchan a wl cm B sc S (fun q => m (3 * n + q)) r b = row_weight npix nchan a wl cm B sc S m (n + r) b.
  Proof. unfold row_weight. apply (csum_ext (K := RR)). intros c _. now rewrite !coord_shift. Qed.
  Lemma fine_shift m n r : okrow (fun q => m (3 * n + q)) r <-> okrow m (n + r).
  Proof. unfold row_fine. split; intros H c Hc; specialize (H c Hc); [rewrite !coord_shift in H|rewrite !coord_shift]; exact H. Qed.
  Lemma cell_linear v w u m r b y x x1 x2 : (forall c k, u c k = cadd (cmul x1 (v c k)) (cmul x2 (w c k))) ->
    row_cell npix nchan a wl cm P B sc S u m r b y x = cadd (cmul x1 (row_cell npix nchan a wl cm P B sc S v m r b y x)) (cmul x2 (row_cell npix nchan a wl cm P B sc S w m r b y x)).
  Proof.
    intros H. unfold row_cell. rewrite <- !(csum_mul_l RC_laws), <- (csum_add RC_laws). apply csum_ext. intros c _. destruct (cm c =? b).
    - apply (contribution_linear npix a sc S (policy_steady _ _ EC)). eapply stokes_linear; [exact ES|]. unfold after_vis. eapply phase_linear; eauto.
    - destruct x1, x2. apply injective_projections; cbn; ring.
  Qed.
End Whole.

Lemma gridder_policies nuvw ucols uvw nrow nvc ncorr vis nchan wl ncm cm npix a dn gu : gridder nuvw ucols uvw nrow nvc ncorr vis nchan wl ncm cm npix a dn = Ok gu ->
  exists P B S sc, phase_policy (phase a) = Ok P /\ baseline_policy (baseline a) = Ok B /\ corr2stokes (stokes_conversion a) ncorr = Ok S /\ scatter_policy (convolution a) = Ok sc.
Proof.
  unfold gridder. destruct (phase_policy (phase a)) as [P|]; [|discriminate]. destruct (baseline_policy (baseline a)) as [B|]; [|discriminate].
  destruct (corr2stokes (stokes_conversion a) ncorr) as [S|]; [|discriminate]. destruct (scatter_policy (convolution a)) as [sc|]; [|discriminate]. intros _. exists P, B, S, sc. auto.
Qed.

Lemma additive n m uvw vis ncorr nchan wl cm npix a g uv :
  gridder (n + m) 3 uvw (n + m) nchan ncorr vis nchan wl nchan cm npix a false = Ok (g, uv) ->
  exists g1 uv1 g2 uv2, gridder n 3 uvw n nchan ncorr vis nchan wl nchan cm npix a false = Ok (g1, uv1) /\
    gridder m 3 (fun q => uvw (3 * n + q)) m nchan ncorr (fun r => vis (n + r)) nchan wl nchan cm npix a false = Ok (g2, uv2) /\
    forall b y x, g b y x = cadd (g1 b y x) (g2 b y x).
Proof.
  intros H. destruct (gridder_policies _ _ _ _ _ _ _ _ _ _ _ _ _ _ _ H) as (P & B & S & sc & EP & EB & ES & EC).
  destruct (gridder_inv npix nchan ncorr a wl cm P B S sc EP EB ES EC _ _ _ _ _ _ _ _ _ H) as (_ & _ & _ & _ & (nb & Hb) & F).
  destruct (gridder_run npix nchan ncorr a wl cm P B S sc EP EB ES EC (n + m) nb uvw vis false Hb F) as (g0 & u0 & v0 & E0 & H0 & _). rewrite H in E0. injection E0 as -> ->.
  destruct (gridder_run npix nchan ncorr a wl cm P B S sc EP EB ES EC n nb uvw vis false Hb) as (g1 & u1 & v1 & E1 & H1 & _); [intros; apply F; lia|].
  destruct (gridder_run npix nchan ncorr a wl cm P B S sc EP EB ES EC m nb (fun q => uvw (3 * n + q)) (fun r => vis (n + r)) false Hb) as (g2 & u2 & v2 & E2 & H2 & _).
  { intros r Hr. apply (fine_shift npix nchan a wl B S sc EB). apply F. lia. }
  exists g1, (u1, v1), g2, (u2, v2). split; [exact E1|]. split; [exact E2|]. intros b y x. rewrite H0, H1, H2. unfold normal. cbn [andb].
  rewrite (csum_split RC_laws). rewrite (csum_ext m (fun r => row_cell npix nchan a wl cm P B sc S (vis (n + r)) (fun q => uvw (3 * n + q)) r b y x) (fun r => row_cell npix nchan a wl cm P B sc S (vis (n + r)) uvw (n + r) b y x)).
  - generalize (csum n (fun r => row_cell npix nchan a wl cm P B sc S (vis r) uvw r b y x)) (csum m (fun r => row_cell npix nchan a wl cm P B sc S (vis (n + r)) uvw (n + r) b y x)). intros [p q] [z t]. apply injective_projections; cbn; ring.
  - intros r _. now apply (cell_shift npix nchan a wl cm P B S sc EP EB).
Qed.
Lemma linear nrow uvw v w u ncorr nchan wl cm npix a dn x1 x2 gu : (forall r c k, u r c k = cadd (cmul x1 (v r c k)) (cmul x2 (w r c k))) ->
  gridder nrow 3 uvw nrow nchan ncorr u nchan wl nchan cm npix a dn = Ok gu ->
  exists gv gw, gridder nrow 3 uvw nrow nchan ncorr v nchan wl nchan cm npix a dn = Ok gv /\ gridder nrow 3 uvw nrow nchan ncorr w nchan wl nchan cm npix a dn = Ok gw /\
    forall b y x, fst gu b y x = cadd (cmul x1 (fst gv b y x)) (cmul x2 (fst gw b y x)).
Proof.
  intros L H. destruct (gridder_policies _ _ _ _ _ _ _ _ _ _ _ _ _ _ _ H) as (P & B & S & sc & EP & EB & ES & EC).
  destruct (gridder_inv npix nchan ncorr a wl cm P B S sc EP EB ES EC _ _ _ _ _ _ _ _ _ H) as (_ & _ & _ & _ & (nb & Hb) & F).
  destruct (gridder_run npix nchan ncorr a wl cm P B S sc EP EB ES EC nrow nb uvw u dn Hb F) as (g0 & u0 & v0 & E0 & H0 & _). rewrite H in E0. injection E0 as ->.
  destruct (gridder_run npix nchan ncorr a wl cm P B S sc EP EB ES EC nrow nb uvw v dn Hb F) as (g1 & u1 & v1 & E1 & H1 & _).
  destruct (gridder_run npix nchan ncorr a wl cm P B S sc EP EB ES EC nrow nb uvw w dn Hb F) as (g2 & u2 & v2 & E2 & H2 & _).
  exists (g1, (u1, v1)), (g2, (u2, v2)). split; [exact E1|]. split; [exact E2|]. intros b y x. cbn [fst]. rewrite H0, H1, H2.
  rewrite (csum_ext nrow _ (fun r => cadd (cmul x1 (row_cell npix nchan a wl cm P B sc S (v r) uvw r b y x)) (cmul x2 (row_cell npix nchan a wl cm P B sc S (w r) uvw r b y x)))).
  2: { intros r _. apply (cell_linear npix nchan ncorr a wl cm P B S sc EP ES EC). apply L. }
  rewrite (csum_add RC_laws), !(csum_mul_l RC_laws).
  generalize (csum nrow (fun r => row_cell npix nchan a wl cm P B sc S (v r) uvw r b y x)) (csum nrow (fun r => row_cell npix nchan a wl cm P B sc S (w r) uvw r b y x)) (normal dn nb b (csum (K := RR) nrow (fun r => row_weight npix nchan a wl cm B sc S uvw r b))).
  destruct x1, x2. intros [c d] [e f] [h i]. apply injective_projections; cbn; ring.
Qed.
