(* predict_vis without laws of arithmetic, and its rounding errors. *)
From Coq Require Import Reals Lra Lia.
From Verif Require Import Prelude PreludeFacts CRing CplxR PredictModel PredictSpec PredictProofs RoundModel RoundSpec RoundProofs.
Open Scope nat_scope.

Section Free.
  Context {K : cops}.
  Open Scope K_scope.
  (* the products in the order of the code *)
  Definition T3 (full : bool) (a x b : jones K) : jones K :=
    if full then fun i j => a i 0%nat * (x 0%nat 0%nat * cconj (b j 0%nat) + x 0%nat 1%nat * cconj (b j 1%nat)) +
                            a i 1%nat * (x 1%nat 0%nat * cconj (b j 0%nat) + x 1%nat 1%nat * cconj (b j 1%nat))
    else fun i j => a i j * x i j * cconj (b i j).
  Definition T2 (full : bool) (a b : jones K) : jones K :=
    if full then fun i j => a i 0%nat * cconj (b j 0%nat) + a i 1%nat * cconj (b j 1%nat)
    else fun i j => a i j * cconj (b i j).
  Ltac two_cases i j := destruct i as [|[|i]]; destruct j as [|[|j]]; try lia.
  Lemma free3_const full acc n a x b (out : jones K) i j : corr_ok full n i j ->
    jones_mul3 (jt_of full) acc n a (fun _ => x) b out i j = if acc then out i j + T3 full a x b i j else T3 full a x b i j.
  Proof.
    destruct full; intros H; unfold T3.
    - destruct H as [Hi Hj]. unfold jones_mul3, jt_of. two_cases i j; rewrite !put_at; cbn [Nat.eqb andb]; destruct acc; reflexivity.
    - destruct H as [Hi ->]. unfold jones_mul3, jt_of.
      rewrite (diag_loop acc n (fun c _ => a c 0%nat * x c 0%nat * cconj (b c 0%nat))). destruct (Nat.ltb_spec i n); [|lia]. reflexivity.
  Qed.
  Lemma free3_self full n a b (out : jones K) i j : corr_ok full n i j ->
    jones_mul3 (jt_of full) false n a (fun o => o) b out i j = T3 full a out b i j.
  Proof.
    destruct full; intros H; unfold T3.
    - destruct H as [Hi Hj]. unfold jones_mul3, jt_of. two_cases i j; rewrite !put_at; cbn [Nat.eqb andb]; reflexivity.
    - destruct H as [Hi ->]. unfold jones_mul3, jt_of.
      rewrite (diag_loop false n (fun c v => a c 0%nat * v * cconj (b c 0%nat))). destruct (Nat.ltb_spec i n); [|lia]. reflexivity.
  Qed.
  Lemma free2 full n a b (out : jones K) i j : corr_ok full n i j ->
    jones_mul2 (jt_of full) true n a b out i j = out i j + T2 full a b i j.
  Proof.
    destruct full; intros H; unfold T2.
    - destruct H as [Hi Hj]. unfold jones_mul2, jt_of. two_cases i j; rewrite !put_at; cbn [Nat.eqb andb]; reflexivity.
    - destruct H as [Hi ->]. unfold jones_mul2, jt_of.
      rewrite (diag_loop true n (fun c _ => a c 0%nat * cconj (b c 0%nat))). destruct (Nat.ltb_spec i n); [|lia]. reflexivity.
  Qed.
  Lemma free_acc full n S (g : nat -> jones K -> jones K) (t : nat -> jones K) (j0 : jones K) :
    (forall s j i k, corr_ok full n i k -> g s j i k = j i k + t s i k) ->
    forall i k, corr_ok full n i k -> j0 i k = 0 -> for_ S g j0 i k = csum S (fun s => t s i k).
  Proof. intros H i k C Z. induction S as [|S IH]; [exact Z|]. rewrite for_S, H, IH by exact C. reflexivity. Qed.

  Definition free_src (full : bool) (t : nat) (a : predict_in K) (r f : nat) : jones K := fun i j =>
    match p_dde1 a, p_coh a, p_dde2 a with
    | Some e1, Some x, Some e2 => csum (d_src e1) (fun s => T3 full (d_at e1 s t (p_ant1 a r) f) (h_at x s r f) (d_at e2 s t (p_ant2 a r) f) i j)
    | Some e1, None, Some e2 => csum (d_src e1) (fun s => T2 full (d_at e1 s t (p_ant1 a r) f) (d_at e2 s t (p_ant2 a r) f) i j)
    | None, Some x, None => csum (h_src x) (fun s => h_at x s r f i j)
    | _, _, _ => 0
    end.
  Definition free_inner (full : bool) (t : nat) (a : predict_in K) (r f : nat) : jones K :=
    match p_bvis a with Some b => fun i j => free_src full t a r f i j + v_at b r f i j | None => free_src full t a r f end.
  Definition free_out (full : bool) (t : nat) (a : predict_in K) (r f : nat) : jones K :=
    match p_die1 a, p_die2 a with
    | Some g1, Some g2 => T3 full (g_at g1 t (p_ant1 a r) f) (free_inner full t a r f) (g_at g2 t (p_ant2 a r) f)
    | _, _ => free_inner full t a r f
    end.

  Lemma T3_ext full n (a x x' b : jones K) : jeq full n x x' -> jeq full n (T3 full a x b) (T3 full a x' b).
  Proof.
    intros H i j C. unfold T3. destruct full.
    - rewrite !H by (split; lia). reflexivity.
    - now rewrite (H i j C).
  Qed.
  Lemma sum_free full nsrc nchan ncorr (a : predict_in K) tmin r f i j :
    shapes full nsrc nchan ncorr a -> paired (p_dde1 a) (p_dde2 a) -> r < p_nrow a -> f < nchan -> corr_ok full ncorr i j ->
    sum_coherencies (jt_of full) ncorr (p_nrow a) (p_time a) (p_ant1 a) (p_ant2 a) (p_dde1 a) (p_coh a) (p_dde2 a) tmin (fun _ _ _ _ => 0) r f i j =
    free_src full (Z.to_nat (p_time a r - tmin)) a r f i j.
  Proof.
    intros [S1 S2 S3 S4 S5 S6] P Hr Hf C. unfold paired in P. unfold sum_coherencies, free_src.
    destruct (p_dde1 a) as [e1|]; destruct (p_dde2 a) as [e2|];
      try (exfalso; destruct P as [P P']; (discriminate (P eq_refl) || discriminate (P' eq_refl))).
    - destruct (S1 e1 eq_refl) as [_ [_ [Hc _]]]. destruct (p_coh a) as [x|].
      + set (g := fun s r f => jones_mul3 (jt_of full) true ncorr (d_at e1 s (Z.to_nat (p_time a r - tmin)) (p_ant1 a r) f)
             (fun _ => h_at x s r f) (d_at e2 s (Z.to_nat (p_time a r - tmin)) (p_ant2 a r) f)).
        etransitivity; [refine (f_equal (fun (j : jones K) => j i _) (loop_srf (d_src e1) (p_nrow a) (d_chan e1) g (fun _ _ _ _ => 0) r f Hr _)); lia|].
        apply free_acc with (full := full) (n := ncorr) (t := fun s => T3 full (d_at e1 s (Z.to_nat (p_time a r - tmin)) (p_ant1 a r) f)
             (h_at x s r f) (d_at e2 s (Z.to_nat (p_time a r - tmin)) (p_ant2 a r) f)); [|exact C|reflexivity].
        intros s jj i' k' C'. unfold g. now rewrite free3_const.
      + set (g := fun s r f => jones_mul2 (jt_of full) true ncorr (d_at e1 s (Z.to_nat (p_time a r - tmin)) (p_ant1 a r) f)
             (d_at e2 s (Z.to_nat (p_time a r - tmin)) (p_ant2 a r) f)).
        etransitivity; [refine (f_equal (fun (j : jones K) => j i _) (loop_srf (d_src e1) (p_nrow a) (d_chan e1) g (fun _ _ _ _ => 0) r f Hr _)); lia|].
        apply free_acc with (full := full) (n := ncorr) (t := fun s => T2 full (d_at e1 s (Z.to_nat (p_time a r - tmin)) (p_ant1 a r) f)
             (d_at e2 s (Z.to_nat (p_time a r - tmin)) (p_ant2 a r) f)); [|exact C|reflexivity].
        intros s jj i' k' C'. unfold g. now rewrite free2.
    - destruct (p_coh a) as [x|]; [|reflexivity].
      destruct (S3 x eq_refl) as [_ [_ [Hro [Hc Hco]]]]. rewrite Hco.
      set (g := fun s r f (jj : jones K) => match jt_of full with
            | J_2X2 => for_ 2 (fun c1 => for_ 2 (fun c2 j => put true j c1 c2 (h_at x s r f c1 c2))) jj
            | _ => for_ ncorr (fun c j => put true j c 0 (h_at x s r f c 0%nat)) jj end).
      etransitivity; [refine (f_equal (fun (j : jones K) => j i _) (loop_srf (h_src x) (h_row x) (h_chan x) g (fun _ _ _ _ => 0) r f _ _)); lia|].
      apply free_acc with (full := full) (n := ncorr) (t := fun s => h_at x s r f); [|exact C|reflexivity].
      intros s jj i' k' C'. unfold g. now rewrite coh_put.
  Qed.

  Theorem predict_free full nsrc nchan ncorr (a : predict_in K) :
    shapes full nsrc nchan ncorr a -> paired (p_dde1 a) (p_dde2 a) -> paired (p_die1 a) (p_die2 a) -> supplied a -> 0 < p_nrow a ->
    exists out, predict_vis a = Ok out /\
      v_ndim out = (if full then 4 else 3)%nat /\ v_row out = p_nrow a /\ v_chan out = nchan /\ v_corr out = ncorr /\
      forall tmin, is_min (p_nrow a) (p_time a) tmin -> forall r f, r < p_nrow a -> f < nchan ->
        jeq full ncorr (v_at out r f) (free_out full (Z.to_nat (p_time a r - tmin)) a r f).
  Proof.
    intros Sh P1 P2 Sup Hn. unfold predict_vis.
    destruct (checks_ok _ _ _ _ a Sh P1 P2) as [fl E]. rewrite E. cbn [bind].
    rewrite (jones_type_ok _ _ _ _ a Sh Sup). cbn [bind].
    rewrite (shape_ok _ _ _ _ a Sh P1 P2 Sup). cbn [bind].
    destruct (Nat.eqb_spec (p_nrow a) 0); [lia|]. eexists. split; [reflexivity|].
    cbn [v_ndim v_row v_chan v_corr v_at]. split; [destruct full; reflexivity|].
    split; [reflexivity|]. split; [reflexivity|]. split; [reflexivity|].
    intros tmin Hm r f Hr Hf.
    rewrite <- (is_min_unique _ _ _ _ (zmin_is_min _ (p_time a) Hn) Hm).
    set (tm := zmin (p_nrow a) (p_time a)). unfold free_out.
    set (t := Z.to_nat (p_time a r - tm)).
    assert (A : jeq full ncorr (add_coh (p_bvis a) (sum_coherencies (jt_of full) ncorr (p_nrow a) (p_time a) (p_ant1 a) (p_ant2 a)
       (p_dde1 a) (p_coh a) (p_dde2 a) tm (fun _ _ _ _ => 0)) r f) (free_inner full t a r f)).
    { intros i j C. unfold add_coh, free_inner.
      destruct (p_bvis a) as [b|]; rewrite (sum_free full nsrc nchan ncorr a tm r f i j Sh P1 Hr Hf C); reflexivity. }
    unfold apply_dies. unfold paired in P2.
    destruct (p_die1 a) as [g1|]; destruct (p_die2 a) as [g2|];
      try (exfalso; destruct P2 as [P P']; (discriminate (P eq_refl) || discriminate (P' eq_refl)));
      [|exact A].
    intros i j C.
    match goal with |- for_ _ ?body ?ob r f i j = _ =>
      etransitivity; [exact (f_equal (fun jj : jones K => jj i j) (loop_rf (p_nrow a) nchan
        (fun r f => jones_mul3 (jt_of full) false ncorr (g_at g1 (Z.to_nat (p_time a r - tm)) (p_ant1 a r) f) (fun out => out)
                   (g_at g2 (Z.to_nat (p_time a r - tm)) (p_ant2 a r) f)) ob r f))|] end.
    destruct (Nat.ltb_spec r (p_nrow a)); [|lia]. destruct (Nat.ltb_spec f nchan); [|lia]. cbn [andb].
    rewrite free3_self by exact C. fold t. exact (T3_ext full ncorr _ _ _ _ A i j C).
  Qed.
End Free.

Section Near.
  Context (fl : R -> R) (u : R) (Hu : roundoff fl u).
  Notation F := (rounded fl).
  Notation near := (near u).
  (* a machine matrix, an exact one, sizes *)
  Definition jnear (k : nat) (full : bool) (n : nat) (a : jones F) (b : jones RC) (c : jones RR) : Prop :=
    forall i j, corr_ok full n i j -> near k (a i j) (b i j) (c i j).
  Definition dnear (a : dde_arr F) (b : dde_arr RC) (c : dde_arr RR) : Prop :=
    d_src b = d_src a /\ d_src c = d_src a /\ forall s t p f i j, near 0 (d_at a s t p f i j) (d_at b s t p f i j) (d_at c s t p f i j).
  Definition hnear (a : coh_arr F) (b : coh_arr RC) (c : coh_arr RR) : Prop :=
    h_src b = h_src a /\ h_src c = h_src a /\ forall s r f i j, near 0 (h_at a s r f i j) (h_at b s r f i j) (h_at c s r f i j).
  Definition gnear (a : die_arr F) (b : die_arr RC) (c : die_arr RR) : Prop :=
    forall t p f i j, near 0 (g_at a t p f i j) (g_at b t p f i j) (g_at c t p f i j).
  Definition onear {A B C} (P : A -> B -> C -> Prop) (a : option A) (b : option B) (c : option C) : Prop :=
    match a, b, c with Some a, Some b, Some c => P a b c | None, None, None => True | _, _, _ => False end.
  Record tracks (k : nat) (full : bool) (nchan ncorr : nat) (a : predict_in F) (b : predict_in RC) (c : predict_in RR) : Prop := {
    tr_ant1 : p_ant1 b = p_ant1 a /\ p_ant1 c = p_ant1 a;
    tr_ant2 : p_ant2 b = p_ant2 a /\ p_ant2 c = p_ant2 a;
    tr_dde1 : onear dnear (p_dde1 a) (p_dde1 b) (p_dde1 c);
    tr_coh : onear hnear (p_coh a) (p_coh b) (p_coh c);
    tr_dde2 : onear dnear (p_dde2 a) (p_dde2 b) (p_dde2 c);
    tr_die1 : onear gnear (p_die1 a) (p_die1 b) (p_die1 c);
    tr_die2 : onear gnear (p_die2 a) (p_die2 b) (p_die2 c);
    tr_bvis : onear (fun x y z => forall r f, r < p_nrow a -> f < nchan -> jnear k full ncorr (v_at x r f) (v_at y r f) (v_at z r f)) (p_bvis a) (p_bvis b) (p_bvis c) }.

  Definition nadd := near_add fl u Hu.
  Definition nmul := near_mul fl u Hu.
  Definition nmono := near_mono fl u Hu.
  Definition nconj k x' x m := near_conj fl u k x' x m.

  Lemma T3_near k full n a a1 a2 x x1 x2 b b1 b2 : jnear 0 full n a a1 a2 -> jnear 0 full n b b1 b2 -> jnear k full n x x1 x2 ->
    jnear (k + 6) full n (T3 full a x b) (T3 full a1 x1 b1) (T3 full a2 x2 b2).
  Proof.
    intros A B X i j C. unfold T3. destruct full.
    - assert (I : forall p q, p < 2 -> near (S (k + 2)) (cadd (c := F) (cmul (c := F) (x p 0) (cconj (c := F) (b q 0))) (cmul (c := F) (x p 1) (cconj (c := F) (b q 1))))
         (cadd (c := RC) (cmul (c := RC) (x1 p 0) (cconj (c := RC) (b1 q 0))) (cmul (c := RC) (x1 p 1) (cconj (c := RC) (b1 q 1))))
         (x2 p 0%nat * b2 q 0%nat + x2 p 1%nat * b2 q 1%nat)%R \/ 2 <= q).
      { intros p q Hp. destruct (le_lt_dec 2 q) as [|Hq]; [now right|left]. apply nadd.
        - replace (k + 2) with (k + 0 + 2) by lia. apply nmul; [apply X; split; lia|]. apply nconj, B. split; lia.
        - replace (k + 2) with (k + 0 + 2) by lia. apply nmul; [apply X; split; lia|]. apply nconj, B. split; lia. }
      destruct C as [Hi Hj]. replace (k + 6) with (S (0 + S (k + 2) + 2)) by lia.
      destruct (I 0 j ltac:(lia)) as [I0|]; [|lia]. destruct (I 1 j ltac:(lia)) as [I1|]; [|lia].
      apply nadd; (apply nmul; [apply A; split; lia|assumption]).
    - apply (nmono (0 + k + 2 + 0 + 2)); [lia|]. apply nmul; [apply nmul; [now apply A|now apply X]|]. apply nconj. now apply B.
  Qed.
  Lemma T2_near full n a a1 a2 b b1 b2 : jnear 0 full n a a1 a2 -> jnear 0 full n b b1 b2 ->
    jnear 6 full n (T2 full a b) (T2 full a1 b1) (T2 full a2 b2).
  Proof.
    intros A B i j C. unfold T2. destruct full.
    - destruct C as [Hi Hj]. apply (nmono (S (0 + 0 + 2))); [lia|]. apply nadd; (apply nmul; [apply A; split; lia|apply nconj, B; split; lia]).
    - apply (nmono (0 + 0 + 2)); [lia|]. apply nmul; [now apply A|]. apply nconj. now apply B.
  Qed.

  Lemma free_near k full nsrc nchan ncorr a b c t r f :
    shapes full nsrc nchan ncorr a -> tracks k full nchan ncorr a b c -> r < p_nrow a -> f < nchan ->
    jnear (S (Nat.max (6 + nsrc) k) + 6) full ncorr (free_out full t a r f) (free_out full t b r f) (free_out full t c r f) /\
    (p_die1 a = None -> p_bvis a = None -> jnear (6 + nsrc) full ncorr (free_out full t a r f) (free_out full t b r f) (free_out full t c r f)) /\
    (p_die1 a = None -> jnear (S (Nat.max (6 + nsrc) k)) full ncorr (free_out full t a r f) (free_out full t b r f) (free_out full t c r f)).
  Proof.
    intros [S1 S2 S3 _ _ _] [[A1 A1'] [A2 A2'] D1 X D2 G1 G2 V] Hr Hf.
    assert (Src : jnear (6 + nsrc) full ncorr (free_src full t a r f) (free_src full t b r f) (free_src full t c r f)).
    { intros i j C. unfold free_src. rewrite A1, A1', A2, A2'. unfold onear in D1, X, D2.
      destruct (p_dde1 a) as [e1|], (p_dde1 b) as [e1b|], (p_dde1 c) as [e1c|]; try contradiction;
      destruct (p_coh a) as [h|], (p_coh b) as [hb|], (p_coh c) as [hc|]; try contradiction;
      destruct (p_dde2 a) as [e2|], (p_dde2 b) as [e2b|], (p_dde2 c) as [e2c|]; try contradiction;
      try (exact (near_0 fl u Hu _)).
      - destruct D1 as (-> & -> & D1), D2 as (_ & _ & D2), X as (_ & _ & X). destruct (S1 e1 eq_refl) as (_ & -> & _).
        apply near_csum; [exact Hu|]. intros s _. apply (T3_near 0 full ncorr); try exact C; intros i' j' _; auto.
      - destruct D1 as (-> & -> & D1), D2 as (_ & _ & D2). destruct (S1 e1 eq_refl) as (_ & -> & _).
        apply near_csum; [exact Hu|]. intros s _. apply (T2_near full ncorr); try exact C; intros i' j' _; auto.
      - destruct X as (-> & -> & X). destruct (S3 h eq_refl) as (_ & -> & _).
        apply near_csum; [exact Hu|]. intros s _. apply (nmono 0); [lia|]. apply X. }
    assert (In : jnear (S (Nat.max (6 + nsrc) k)) full ncorr (free_inner full t a r f) (free_inner full t b r f) (free_inner full t c r f)).
    { intros i j C. unfold free_inner. unfold onear in V. destruct (p_bvis a) as [v|], (p_bvis b) as [vb|], (p_bvis c) as [vc|]; try contradiction.
      - apply nadd; [apply (nmono (6 + nsrc)); [lia|now apply Src]|]. apply (nmono k); [lia|]. now apply V.
      - apply (nmono (6 + nsrc)); [lia|now apply Src]. }
    unfold free_out. rewrite A1, A1', A2, A2'. unfold onear in G1, G2.
    destruct (p_die1 a) as [g1|], (p_die1 b) as [g1b|], (p_die1 c) as [g1c|]; try contradiction;
    destruct (p_die2 a) as [g2|], (p_die2 b) as [g2b|], (p_die2 c) as [g2c|]; try contradiction.
    - split; [|split; discriminate]. apply T3_near; [intros i j _; apply G1|intros i j _; apply G2|exact In].
    - split; [|split; discriminate]. intros i j C. apply (nmono (S (Nat.max (6 + nsrc) k))); [lia|now apply In].
    - split; [|split; [intros _ Z|intros _; exact In]]; intros i j C.
      + apply (nmono (S (Nat.max (6 + nsrc) k))); [lia|now apply In].
      + unfold free_inner. unfold onear in V. destruct (p_bvis a), (p_bvis b), (p_bvis c); try contradiction; try discriminate. now apply Src.
    - split; [|split; [intros _ Z|intros _; exact In]]; intros i j C.
      + apply (nmono (S (Nat.max (6 + nsrc) k))); [lia|now apply In].
      + unfold free_inner. unfold onear in V. destruct (p_bvis a), (p_bvis b), (p_bvis c); try contradiction; try discriminate. now apply Src.
  Qed.
End Near.
