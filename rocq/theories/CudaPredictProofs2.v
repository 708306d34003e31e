From Coq Require Import Reals Lra Ring.
From Verif Require Import Prelude PreludeFacts LoopFacts CRing CplxR UtilModel PredictModel PredictSpec PredictProofs DaskRimeModel DaskRimeProofs CohSpec
  CudaPredictModel CudaPredictSpec CudaPredictProofs.
Open Scope nat_scope.
Add Ring RCring : (law_ring RC RC_laws).

Lemma jprod_assoc m (A B C : jones RC) i j : jprod m (jprod m A B) C i j = jprod m A (jprod m B C) i j.
Proof. destruct m; unfold jprod; cbn [csum]; ring. Qed.
Lemma jprod_one m (A B : jones RC) i j : jprod m A (jprod m (jone m) B) i j = jprod m A B i j.
Proof. destruct m; unfold jprod, jone; cbn [csum Nat.eqb]; ring. Qed.
Lemma corr_ext m (A B : jones RC) c : (forall i j, A i j = B i j) -> corr_at m 2 A c = corr_at m 2 B c.
Proof. intros H. unfold corr_at. destruct m; apply H. Qed.

Section Kernel.
  Variables (m : bool) (k : kargs) (a : predict_in RC) (und : regs) (row start : nat).
  Notation corrs := (k_corrs k).
  Notation nchan := (k_nchan k).
  Notation ncc := (k_nchan k * k_corrs k).
  Notation t := (k_time k row).
  Notation p := (k_ant1 k row).
  Notation q := (k_ant2 k row).
  Hypothesis Hc : if m then corrs = 4 else corrs <> 4.
  Hypothesis Hp : 0 < corrs.
  Hypothesis Hs : exists b, start = 32 * b.
  Hypothesis Ea1 : p_ant1 a row = p.
  Hypothesis Ea2 : p_ant2 a row = q.
  Definition stored {X} (x : option X) (g : option (nat -> RC)) (P : X -> (nat -> RC) -> Prop) : Prop :=
    match x, g with None, None => True | Some e, Some g => P e g | _, _ => False end.
  Definition cell (g : nat -> RC) (base : nat) (J : nat -> jones RC) : Prop :=
    forall f c, f < nchan -> c < corrs -> g (base * ncc + (f * corrs + c)) = corr_at m 2 (J f) c.
  Hypothesis D1 : stored (p_dde1 a) (k_dde1 k) (fun e g => d_src e = k_nsrc k /\
    forall s, s < k_nsrc k -> cell g ((s * k_ntime k + t) * k_na k + p) (d_at e s t p)).
  Hypothesis D2 : stored (p_dde2 a) (k_dde2 k) (fun e g => d_src e = k_nsrc k /\
    forall s, s < k_nsrc k -> cell g ((s * k_ntime k + t) * k_na k + q) (d_at e s t q)).
  Hypothesis DX : stored (p_coh a) (k_coh k) (fun e g => h_src e = k_nsrc k /\
    forall s, s < k_nsrc k -> cell g (s * k_nrow k + row) (h_at e s row)).
  Hypothesis DB : stored (p_bvis a) (k_bvis k) (fun e g => cell g row (v_at e row)).
  Hypothesis G1 : stored (p_die1 a) (k_die1 k) (fun e g => cell g (t * k_na k + p) (g_at e t p)).
  Hypothesis G2 : stored (p_die2 a) (k_die2 k) (fun e g => cell g (t * k_na k + q) (g_at e t q)).
  Hypothesis Pd : paired (p_dde1 a) (p_dde2 a).
  Notation repk := (rep m nchan corrs start).

  Lemma load_rep g base J : cell g base J -> repk (fun lane => g (base * ncc + (start + lane))) J.
  Proof.
    intros H lane L V. rewrite (Nat.div_mod (start + lane) corrs) at 1 by lia.
    rewrite (Nat.mul_comm corrs). apply H.
    - apply Nat.div_lt_upper_bound; lia.
    - apply Nat.mod_upper_bound; lia.
  Qed.
  Lemma rep_ext X A B : repk X A -> (forall f i j, A f i j = B f i j) -> repk X B.
  Proof. intros H E lane L V. rewrite (H lane L V). apply corr_ext, E. Qed.
  Lemma add_rep X Y A B : repk X A -> repk Y B -> repk (fun lane => addv (X lane) (Y lane)) (fun f => jadd (A f) (B f)).
  Proof. intros H H' lane L V. rewrite (H lane L V), (H' lane L V). unfold corr_at, jadd. destruct m; reflexivity. Qed.
  Lemma loop_rep n (Y : nat -> regs) (B : nat -> nat -> jones RC) X A :
    (forall s, s < n -> repk (Y s) (B s)) -> repk X A ->
    repk (for_ n (fun s corr lane => addv (corr lane) (Y s lane)) X) (fun f => jadd (A f) (jsum n (fun s => B s f))).
  Proof.
    intros H HX. induction n as [|n IH].
    - eapply rep_ext; [exact HX|]. intros f i j. unfold jadd, jsum. cbn [csum]. ring.
    - rewrite for_S. eapply rep_ext; [apply add_rep; [apply IH; auto|apply H; lia]|].
      intros f i j. unfold jadd, jsum. cbn [csum]. ring.
  Qed.

  Lemma kernel_rep : repk (kernel_warp k und row start) (fun f => measurement m t a row f).
  Proof.
    assert (BV : repk (match k_bvis k with Some b => fun lane => b (row * ncc + (start + lane)) | None => fun _ => (0, 0)%R end)
                     (fun f => match p_bvis a with Some b => v_at b row f | None => jzero end)).
    { red in DB. destruct (p_bvis a) as [b|], (k_bvis k) as [g|]; try contradiction; [now apply load_rep|].
      intros lane L V. unfold corr_at, jzero. destruct m; reflexivity. }
    unfold kernel_warp, measurement, source_term. rewrite Ea1, Ea2.
    assert (DIE : forall X A, repk X A -> repk
       (match k_die1 k, k_die2 k with
        | Some g1, Some g2 =>
            jm_multiply corrs (fun lane => Nat.ltb (start + lane) ncc) und (fun lane => g1 ((t * k_na k + p) * ncc + (start + lane)))
              (jm_multiply_ct corrs (fun lane => Nat.ltb (start + lane) ncc) und X (fun lane => g2 ((t * k_na k + q) * ncc + (start + lane))))
        | _, _ => X end)
       (fun f => match p_die1 a, p_die2 a with Some g1, Some g2 => sandwich m (g_at g1 t p f) (A f) (g_at g2 t q f) | _, _ => A f end)).
    { intros X A HX. red in G1, G2.
      destruct (p_die1 a) as [g1|], (k_die1 k) as [h1|]; try contradiction; destruct (p_die2 a) as [g2|], (k_die2 k) as [h2|]; try contradiction; auto.
      unfold sandwich. apply mult_rep; auto; [now apply load_rep|]. apply mult_ct_rep; auto. now apply load_rep. }
    set (SRC := match k_dde1 k with Some e1 => _ | None => _ end).
    cut (repk SRC (fun f => jadd match p_dde1 a with
        | Some e1 => match p_coh a with
                     | Some x => match p_dde2 a with Some e2 => jsum (d_src e1) (fun s => sandwich m (d_at e1 s t p f) (h_at x s row f) (d_at e2 s t q f)) | None => jzero end
                     | None => match p_dde2 a with Some e2 => jsum (d_src e1) (fun s => sandwich m (d_at e1 s t p f) (jone m) (d_at e2 s t q f)) | None => jzero end
                     end
        | None => match p_coh a with Some x => match p_dde2 a with Some _ => jzero | None => jsum (h_src x) (fun s => h_at x s row f) end | None => jzero end
        end match p_bvis a with Some b => v_at b row f | None => jzero end)).
    { intros HS. exact (DIE _ _ HS). }
    subst SRC. red in D1, D2, DX.
    destruct (p_dde1 a) as [e1|] eqn:E1, (k_dde1 k) as [h1|]; try contradiction;
    destruct (p_dde2 a) as [e2|] eqn:E2, (k_dde2 k) as [h2|]; try contradiction;
      try (exfalso; destruct Pd as [P1 P2]; first [discriminate (P1 eq_refl) | discriminate (P2 eq_refl)]);
    destruct (p_coh a) as [x|], (k_coh k) as [hx|]; try contradiction.
    - destruct D1 as [N1 L1], D2 as [_ L2], DX as [_ LX]. rewrite N1.
      eapply rep_ext; [apply (loop_rep (k_nsrc k) (fun src => jm_multiply_ct corrs (fun lane => Nat.ltb (start + lane) ncc) und
         (jm_multiply corrs (fun lane => Nat.ltb (start + lane) ncc) und (fun lane => h1 (((src * k_ntime k + t) * k_na k + p) * ncc + (start + lane)))
           (fun lane => hx ((src * k_nrow k + row) * ncc + (start + lane))))
         (fun lane => h2 (((src * k_ntime k + t) * k_na k + q) * ncc + (start + lane))))
         (fun s f => jprod m (jprod m (d_at e1 s t p f) (h_at x s row f)) (jherm m (d_at e2 s t q f)))); [|exact BV]|].
      + intros s S. apply mult_ct_rep; auto; [apply mult_rep; auto; apply load_rep; auto|apply load_rep; auto].
      + intros f i j. unfold jadd, jsum, sandwich. rewrite (csum_ext _ _ _ (fun s _ => jprod_assoc m _ _ _ i j)). ring.
    - destruct D1 as [N1 L1], D2 as [_ L2]. rewrite N1.
      eapply rep_ext; [apply (loop_rep (k_nsrc k) (fun src => jm_multiply_ct corrs (fun lane => Nat.ltb (start + lane) ncc) und
         (fun lane => h1 (((src * k_ntime k + t) * k_na k + p) * ncc + (start + lane)))
         (fun lane => h2 (((src * k_ntime k + t) * k_na k + q) * ncc + (start + lane))))
         (fun s f => jprod m (d_at e1 s t p f) (jherm m (d_at e2 s t q f)))); [|exact BV]|].
      + intros s S. apply mult_ct_rep; auto; apply load_rep; auto.
      + intros f i j. unfold jadd, jsum, sandwich.
        rewrite (csum_ext _ (fun s => jprod m (d_at e1 s t p f) (jprod m (jone m) (jherm m (d_at e2 s t q f))) i j)
           (fun s => jprod m (d_at e1 s t p f) (jherm m (d_at e2 s t q f)) i j)) by (intros; apply jprod_one). ring.
    - destruct DX as [NX LX]. rewrite NX.
      eapply rep_ext; [apply (loop_rep (k_nsrc k) (fun src lane => hx ((src * k_nrow k + row) * ncc + (start + lane))) (fun s f => h_at x s row f)); [|exact BV]|].
      + intros s S. apply load_rep; auto.
      + intros f i j. unfold jadd, jsum. ring.
    - eapply rep_ext; [exact BV|]. intros. unfold jadd, jzero. cbn [c0]. ring.
  Qed.

  Lemma kernel_at f c lane : lane < 32 -> f < nchan -> c < corrs -> start + lane = f * corrs + c ->
    kernel_warp k und row start lane = corr_at m 2 (measurement m t a row f) c.
  Proof.
    intros L F C E. rewrite (kernel_rep lane L) by nia. rewrite E.
    rewrite Nat.div_add_l, Nat.div_small, Nat.add_0_r by lia.
    rewrite Nat.add_comm, Nat.mod_add, Nat.mod_small by lia. reflexivity.
  Qed.
End Kernel.

(* all warps *)
Lemma lanes_at n (v : regs) base start ncc out j : for_ n (fun lane out => if Nat.leb ncc (start + lane) then out else upd out (base + (start + lane)) (v lane)) out j =
  if (Nat.leb (base + start) j && Nat.ltb j (base + start + n) && Nat.ltb (j - base) ncc)%bool then v (j - base - start) else out j.
Proof.
  induction n as [|n IH].
  - rewrite Nat.add_0_r. destruct (Nat.leb_spec (base + start) j), (Nat.ltb_spec j (base + start)); cbn [andb]; auto; exfalso; lia.
  - rewrite for_S. destruct (Nat.leb_spec ncc (start + n)).
    + rewrite IH. destruct (Nat.leb_spec (base + start) j), (Nat.ltb_spec j (base + start + n)), (Nat.ltb_spec j (base + start + S n)), (Nat.ltb_spec (j - base) ncc); cbn [andb]; auto; exfalso; lia.
    + destruct (Nat.eq_dec j (base + (start + n))) as [->|].
      * rewrite upd_eq. replace (base + (start + n) - base) with (start + n) by lia. replace (start + n - start) with n by lia.
        destruct (Nat.leb_spec (base + start) (base + (start + n))), (Nat.ltb_spec (base + (start + n)) (base + start + S n)), (Nat.ltb_spec (start + n) ncc); cbn [andb]; auto; exfalso; lia.
      * rewrite upd_neq by auto. rewrite IH. destruct (Nat.leb_spec (base + start) j), (Nat.ltb_spec j (base + start + n)), (Nat.ltb_spec j (base + start + S n)), (Nat.ltb_spec (j - base) ncc); cbn [andb]; auto; exfalso; lia.
Qed.
Lemma run_warp_at k und bd bx by_ ty out r cc : cc < k_nchan k * k_corrs k -> r < k_nrow k ->
  run_warp k und bd (bx, by_, ty) out (r * (k_nchan k * k_corrs k) + cc) =
  if (Nat.eqb (by_ * bd + ty) r && Nat.eqb bx (cc / 32))%bool then kernel_warp k und r (bx * 32) (cc mod 32) else out (r * (k_nchan k * k_corrs k) + cc).
Proof.
  intros C Rr. unfold run_warp, warp_size. set (n := k_nchan k * k_corrs k) in *. set (row := by_ * bd + ty).
  assert (DM := Nat.div_mod cc 32 ltac:(lia)). assert (MB := Nat.mod_upper_bound cc 32 ltac:(lia)).
  destruct (Nat.leb_spec (k_nrow k) row) as [O|I].
  - destruct (Nat.eqb_spec row r); [lia|]. reflexivity.
  - rewrite lanes_at. destruct (Nat.eqb_spec row r) as [->|N]; cbn [andb].
    + destruct (Nat.eqb_spec bx (cc / 32)) as [->|N2].
      * destruct (Nat.leb_spec (r * n + cc / 32 * 32) (r * n + cc)), (Nat.ltb_spec (r * n + cc) (r * n + cc / 32 * 32 + 32)), (Nat.ltb_spec (r * n + cc - r * n) n); cbn [andb]; try lia.
        f_equal. lia.
      * destruct (Nat.leb_spec (r * n + bx * 32) (r * n + cc)), (Nat.ltb_spec (r * n + cc) (r * n + bx * 32 + 32)); cbn [andb]; auto. exfalso. apply N2. nia.
    + destruct (Nat.leb_spec (row * n + bx * 32) (r * n + cc)), (Nat.ltb_spec (r * n + cc - row * n) n); cbn [andb]; rewrite ?Bool.andb_false_r; cbn; auto.
      exfalso. assert (row < r \/ r < row) as [Q|Q] by lia; nia.
Qed.
Lemma run_all k und bd l out r cc v : cc < k_nchan k * k_corrs k -> r < k_nrow k -> 0 < bd ->
  In (cc / 32, r / bd, r mod bd) l -> (forall bx, bx = cc / 32 -> kernel_warp k und r (bx * 32) (cc mod 32) = v) ->
  fold_left (fun out w => run_warp k und bd w out) l out (r * (k_nchan k * k_corrs k) + cc) = v.
Proof.
  intros C Rr B I V. assert (W : forall w o, (let '(bx, by_, ty) := w in by_ * bd + ty = r /\ bx = cc / 32) -> run_warp k und bd w o (r * (k_nchan k * k_corrs k) + cc) = v).
  { intros [[bx by_] ty] o [E1 E2]. rewrite run_warp_at by auto. rewrite E1, Nat.eqb_refl. rewrite E2, Nat.eqb_refl. cbn [andb]. auto. }
  assert (K : forall l' o, o (r * (k_nchan k * k_corrs k) + cc) = v -> fold_left (fun out w => run_warp k und bd w out) l' o (r * (k_nchan k * k_corrs k) + cc) = v).
  { induction l' as [|[[bx by_] ty] l' IH]; intros o H; cbn [fold_left]; auto. apply IH. rewrite run_warp_at by auto.
    destruct (Nat.eqb_spec (by_ * bd + ty) r), (Nat.eqb_spec bx (cc / 32)); cbn [andb]; auto. }
  revert out. induction l as [|w l IH]; intros out; [destruct I|]. cbn [fold_left]. destruct I as [->|I].
  - apply K. apply W. split; auto. rewrite Nat.mul_comm. symmetry. apply Nat.div_mod. lia.
  - apply IH, I.
Qed.
