(* predict_vis evaluates the measurement equation; argument checks *)
From Coq Require Import Ring Permutation.
From Verif Require Import Prelude PreludeFacts CRing PredictModel PredictSpec.
Open Scope nat_scope.

Section Proofs.
  Context {K : cops} (L : claws K).
  Add Ring Kring : (law_ring K L).
  Open Scope K_scope.

  Lemma put_at acc (out : jones K) i j v a b :
    put acc out i j v a b =
      if (Nat.eqb a i && Nat.eqb b j)%bool then (if acc then out i j + v else v) else out a b.
  Proof. reflexivity. Qed.

  Lemma diag_loop acc n (g : nat -> K -> K) (out : jones K) i :
    for_ n (fun c o => put acc o c 0 (g c (o c 0%nat))) out i 0%nat =
      if Nat.ltb i n then (if acc then out i 0%nat + g i (out i 0%nat) else g i (out i 0%nat)) else out i 0%nat.
  Proof.
    induction n as [|n IH]; [reflexivity|]. rewrite for_S, put_at.
    rewrite Nat.eqb_refl, andb_true_r.
    assert (Z : for_ n (fun c o => put acc o c 0 (g c (o c 0%nat))) out n 0%nat = out n 0%nat).
    { clear. assert (X : forall m k, (m <= k)%nat ->
        for_ m (fun c o => put acc o c 0 (g c (o c 0%nat))) out k 0%nat = out k 0%nat).
      { induction m as [|m IH]; intros k Hk; [reflexivity|]. rewrite for_S, put_at.
        destruct (Nat.eqb_spec k m); [lia|]. simpl. apply IH. lia. }
      apply X. lia. }
    destruct (Nat.eqb_spec i n) as [->|Ne].
    - rewrite Z. destruct (Nat.ltb_spec n (S n)); [reflexivity|lia].
    - rewrite IH. destruct (Nat.ltb_spec i n), (Nat.ltb_spec i (S n)); try lia; reflexivity.
  Qed.

  Definition jt_of (full : bool) : jtype := if full then J_2X2 else J_1_OR_2.

  Ltac two_cases i j := destruct i as [|[|i]]; destruct j as [|[|j]]; try lia.

  Lemma jm3_const full acc n a x b (out : jones K) i j : corr_ok full n i j ->
    jones_mul3 (jt_of full) acc n a (fun _ => x) b out i j =
      if acc then out i j + sandwich full a x b i j else sandwich full a x b i j.
  Proof.
    destruct full; intros H; unfold sandwich.
    - destruct H as [Hi Hj]. unfold jones_mul3, jt_of, jprod, jherm. cbn [csum].
      two_cases i j; rewrite !put_at; cbn [Nat.eqb andb]; destruct acc; ring.
    - destruct H as [Hi ->]. unfold jones_mul3, jt_of, jprod, jherm.
      rewrite (diag_loop acc n (fun c _ => a c 0%nat * x c 0%nat * cconj (b c 0%nat))).
      destruct (Nat.ltb_spec i n); [|lia]. destruct acc; ring.
  Qed.

  Lemma jm3_self full n a b (out : jones K) i j : corr_ok full n i j ->
    jones_mul3 (jt_of full) false n a (fun o => o) b out i j = sandwich full a out b i j.
  Proof.
    destruct full; intros H; unfold sandwich.
    - destruct H as [Hi Hj]. unfold jones_mul3, jt_of, jprod, jherm. cbn [csum].
      two_cases i j; rewrite !put_at; cbn [Nat.eqb andb]; ring.
    - destruct H as [Hi ->]. unfold jones_mul3, jt_of, jprod, jherm.
      rewrite (diag_loop false n (fun c v => a c 0%nat * v * cconj (b c 0%nat))).
      destruct (Nat.ltb_spec i n); [|lia]. ring.
  Qed.

  Lemma jm2_spec full n a b (out : jones K) i j : corr_ok full n i j ->
    jones_mul2 (jt_of full) true n a b out i j = out i j + sandwich full a (jone full) b i j.
  Proof.
    destruct full; intros H; unfold sandwich.
    - destruct H as [Hi Hj]. unfold jones_mul2, jt_of, jprod, jherm, jone. cbn [csum].
      two_cases i j; rewrite !put_at; cbn [Nat.eqb andb]; ring.
    - destruct H as [Hi ->]. unfold jones_mul2, jt_of, jprod, jherm, jone.
      rewrite (diag_loop true n (fun c _ => a c 0%nat * cconj (b c 0%nat))).
      destruct (Nat.ltb_spec i n); [|lia]. ring.
  Qed.

  Lemma coh_put full n (x : jones K) (o : jones K) i j : corr_ok full n i j ->
    (match jt_of full with
     | J_2X2 => for_ 2 (fun c1 => for_ 2 (fun c2 j => put true j c1 c2 (x c1 c2))) o
     | _ => for_ n (fun c j => put true j c 0 (x c 0%nat)) o
     end) i j = o i j + x i j.
  Proof.
    destruct full; intros H; cbn [jt_of].
    - destruct H as [Hi Hj]. cbn [for_].
      two_cases i j; rewrite !put_at; cbn [Nat.eqb andb]; reflexivity.
    - destruct H as [Hi ->]. rewrite (diag_loop true n (fun c _ => x c 0%nat)).
      destruct (Nat.ltb_spec i n); [reflexivity|lia].
  Qed.

  (* independent updates of out[r, f] *)
  Lemma at_rf_at (o : @outbuf K) r f g a b :
    at_rf o r f g a b = if (Nat.eqb a r && Nat.eqb b f)%bool then g (o r f) else o a b.
  Proof. reflexivity. Qed.

  Lemma loop_f F r (g : nat -> jones K -> jones K) (out : @outbuf K) a b :
    for_ F (fun f o => at_rf o r f (g f)) out a b =
      if (Nat.eqb a r && Nat.ltb b F)%bool then g b (out a b) else out a b.
  Proof.
    induction F as [|F IH]; [rewrite andb_false_r; reflexivity|].
    rewrite for_S, at_rf_at. destruct (Nat.eqb_spec a r) as [->|Ne]; cbn [andb] in *.
    - destruct (Nat.eqb_spec b F) as [->|Nf].
      + rewrite IH. destruct (Nat.ltb_spec F F); [lia|]. destruct (Nat.ltb_spec F (S F)); [reflexivity|lia].
      + rewrite IH. destruct (Nat.ltb_spec b F), (Nat.ltb_spec b (S F)); try lia; reflexivity.
    - exact IH.
  Qed.

  Lemma loop_rf R F (g : nat -> nat -> jones K -> jones K) (out : @outbuf K) a b :
    for_ R (fun r => for_ F (fun f o => at_rf o r f (g r f))) out a b =
      if (Nat.ltb a R && Nat.ltb b F)%bool then g a b (out a b) else out a b.
  Proof.
    induction R as [|R IH]; [reflexivity|].
    rewrite for_S, loop_f. destruct (Nat.eqb_spec a R) as [->|Ne]; cbn [andb].
    - rewrite IH. destruct (Nat.ltb_spec R R); [lia|]. cbn [andb].
      destruct (Nat.ltb_spec R (S R)); [|lia]. reflexivity.
    - rewrite IH. destruct (Nat.ltb_spec a R), (Nat.ltb_spec a (S R)); try lia; reflexivity.
  Qed.

  Lemma loop_srf S R F (g : nat -> nat -> nat -> jones K -> jones K) (out : @outbuf K) a b :
    a < R -> b < F ->
    for_ S (fun s => for_ R (fun r => for_ F (fun f o => at_rf o r f (g s r f)))) out a b =
    for_ S (fun s j => g s a b j) (out a b).
  Proof.
    intros Ha Hb. induction S as [|S IH]; [reflexivity|].
    rewrite !for_S, loop_rf. destruct (Nat.ltb_spec a R); [|lia]. destruct (Nat.ltb_spec b F); [|lia].
    cbn [andb]. now rewrite IH.
  Qed.

  Lemma acc_sum full n S (g : nat -> jones K -> jones K) (t : nat -> jones K) (j0 : jones K) :
    (forall s j i k, corr_ok full n i k -> g s j i k = j i k + t s i k) ->
    forall i k, corr_ok full n i k -> for_ S g j0 i k = j0 i k + jsum S t i k.
  Proof.
    intros H i k C. unfold jsum. induction S as [|S IH]; simpl; [ring|].
    rewrite H, IH by exact C. ring.
  Qed.

  Lemma zmin_is_min n f : 0 < n -> is_min n f (zmin n f).
  Proof.
    intros Hn. unfold zmin.
    assert (X : forall m, m < n -> is_min (S m) f (for_ m (fun i z => Z.min z (f (S i))) (f 0%nat))).
    { induction m as [|m IH]; intros Hm.
      - split; [exists 0%nat; split; [lia|reflexivity]|]. intros r Hr. assert (r = 0)%nat by lia. subst. simpl. lia.
      - destruct IH as [[r [Hr E]] M]; [lia|]. rewrite for_S. set (z := for_ m _ _) in *. split.
        + destruct (Z.min_spec z (f (S m))) as [[_ ->]|[_ ->]]; [exists r; split; [lia|exact E]|exists (S m); split; [lia|reflexivity]].
        + intros q Hq. destruct (Nat.eq_dec q (S m)) as [->|]; [lia|]. specialize (M q ltac:(lia)). lia. }
    replace n with (S (n - 1)) at 1 by lia. apply X. lia.
  Qed.
  Lemma is_min_unique n f m m' : is_min n f m -> is_min n f m' -> m = m'.
  Proof. intros [[r [Hr <-]] M] [[r' [Hr' <-]] M']. specialize (M r' Hr'). specialize (M' r Hr). lia. Qed.

  (* checks succeed on consistent shapes *)
  Lemma jones_type_ok full nsrc nchan ncorr (a : predict_in K) :
    shapes full nsrc nchan ncorr a -> supplied a ->
    jones_type_of (option_map d_ndim (p_dde1 a)) (option_map h_ndim (p_coh a)) (option_map d_ndim (p_dde2 a))
      (option_map g_ndim (p_die1 a)) (option_map v_ndim (p_bvis a)) (option_map g_ndim (p_die2 a)) = Ok (jt_of full).
  Proof.
    intros [S1 S2 S3 S4 S5 S6] Sup. unfold supplied in Sup. unfold jones_type_of.
    destruct (p_dde1 a) as [e1|]; [destruct (S1 e1 eq_refl) as [N1 _]|];
    destruct (p_coh a) as [x|]; [destruct (S3 x eq_refl) as [N2 _]| |destruct (S3 x eq_refl) as [N2 _]|];
    destruct (p_dde2 a) as [e2|]; try destruct (S2 e2 eq_refl) as [N3 _];
    destruct (p_die1 a) as [g1|]; try destruct (S4 g1 eq_refl) as [N4 _];
    destruct (p_bvis a) as [b|]; try destruct (S6 b eq_refl) as [N5 _];
    destruct (p_die2 a) as [g2|]; try destruct (S5 g2 eq_refl) as [N6 _];
    cbn [option_map]; rewrite ?N1, ?N2, ?N3, ?N4, ?N5, ?N6; clear -Sup; destruct full; try reflexivity;
    exfalso; intuition congruence.
  Qed.

  Lemma checks_ok full nsrc nchan ncorr (a : predict_in K) :
    shapes full nsrc nchan ncorr a -> paired (p_dde1 a) (p_dde2 a) -> paired (p_die1 a) (p_die2 a) ->
    exists fl, predict_checks 1 1 1 (option_map d_ndim (p_dde1 a)) (option_map h_ndim (p_coh a))
      (option_map d_ndim (p_dde2 a)) (option_map g_ndim (p_die1 a)) (option_map v_ndim (p_bvis a))
      (option_map g_ndim (p_die2 a)) = Ok fl.
  Proof.
    intros [S1 S2 S3 S4 S5 S6] P1 P2. unfold paired in *. unfold predict_checks.
    destruct (p_dde1 a) as [e1|]; destruct (p_dde2 a) as [e2|];
      try (exfalso; destruct P1 as [P1 P1']; (discriminate (P1 eq_refl) || discriminate (P1' eq_refl)));
    destruct (p_die1 a) as [g1|]; destruct (p_die2 a) as [g2|];
      try (exfalso; destruct P2 as [P2 P2']; (discriminate (P2 eq_refl) || discriminate (P2' eq_refl)));
    try destruct (S1 e1 eq_refl) as [N1 _]; try destruct (S2 e2 eq_refl) as [N3 _];
    try destruct (S4 g1 eq_refl) as [N4 _]; try destruct (S5 g2 eq_refl) as [N6 _];
    destruct (p_coh a) as [x|]; try destruct (S3 x eq_refl) as [N2 _];
    destruct (p_bvis a) as [b|]; try destruct (S6 b eq_refl) as [N5 _];
    cbn [option_map]; rewrite ?N1, ?N2, ?N3, ?N4, ?N5, ?N6; destruct full; eexists; reflexivity.
  Qed.

  Lemma shape_ok full nsrc nchan ncorr (a : predict_in K) :
    shapes full nsrc nchan ncorr a -> paired (p_dde1 a) (p_dde2 a) -> paired (p_die1 a) (p_die2 a) ->
    supplied a -> output_shape a = Ok (p_nrow a, nchan, ncorr).
  Proof.
    intros [S1 S2 S3 S4 S5 S6] P1 P2 Sup. unfold paired, supplied in *. unfold output_shape.
    destruct (p_dde1 a) as [e1|].
    - destruct (p_dde2 a) as [e2|]; [|exfalso; destruct P1 as [_ P1]; discriminate (P1 eq_refl)].
      destruct (S1 e1 eq_refl) as [_ [_ [-> ->]]]. reflexivity.
    - destruct (p_coh a) as [x|].
      + destruct (S3 x eq_refl) as [_ [_ [_ [-> ->]]]]. reflexivity.
      + destruct (p_die1 a) as [g1|].
        * destruct (p_die2 a) as [g2|]; [|exfalso; destruct P2 as [_ P2]; discriminate (P2 eq_refl)].
          destruct (S4 g1 eq_refl) as [_ [-> ->]]. reflexivity.
        * destruct (p_bvis a) as [b|]; [|exfalso; intuition congruence].
          destruct (S6 b eq_refl) as [_ [_ [-> ->]]]. reflexivity.
  Qed.

  Lemma sandwich_ext full n (a x x' b : jones K) : jeq full n x x' -> jeq full n (sandwich full a x b) (sandwich full a x' b).
  Proof.
    intros H i j C. unfold sandwich, jprod. destruct full.
    - destruct C as [Hi Hj]. apply csum_ext. intros k Hk. f_equal. apply csum_ext. intros m Hm.
      rewrite H; [reflexivity|]. split; lia.
    - destruct C as [Hi ->]. rewrite H; [reflexivity|]. split; [exact Hi|reflexivity].
  Qed.

  Lemma sum_coherencies_spec full nsrc nchan ncorr (a : predict_in K) tmin r f i j :
    shapes full nsrc nchan ncorr a -> paired (p_dde1 a) (p_dde2 a) ->
    r < p_nrow a -> f < nchan -> corr_ok full ncorr i j ->
    sum_coherencies (jt_of full) ncorr (p_nrow a) (p_time a) (p_ant1 a) (p_ant2 a)
       (p_dde1 a) (p_coh a) (p_dde2 a) tmin (fun _ _ _ _ => 0) r f i j =
    source_term full (Z.to_nat (p_time a r - tmin)) a r f i j.
  Proof.
    intros [S1 S2 S3 S4 S5 S6] P Hr Hf C. unfold paired in P. unfold sum_coherencies, source_term.
    destruct (p_dde1 a) as [e1|]; destruct (p_dde2 a) as [e2|];
      try (exfalso; destruct P as [P P']; (discriminate (P eq_refl) || discriminate (P' eq_refl))).
    - destruct (S1 e1 eq_refl) as [_ [_ [Hc _]]]. destruct (p_coh a) as [x|].
      + set (g := fun s r f => jones_mul3 (jt_of full) true ncorr (d_at e1 s (Z.to_nat (p_time a r - tmin)) (p_ant1 a r) f)
             (fun _ => h_at x s r f) (d_at e2 s (Z.to_nat (p_time a r - tmin)) (p_ant2 a r) f)).
        change (for_ (d_src e1) (fun s => for_ (p_nrow a) (fun r => for_ (d_chan e1) (fun f o => at_rf o r f (g s r f))))
                  (fun _ _ _ _ => 0) r f i j = jsum (d_src e1) (fun s => sandwich full (d_at e1 s (Z.to_nat (p_time a r - tmin)) (p_ant1 a r) f)
             (h_at x s r f) (d_at e2 s (Z.to_nat (p_time a r - tmin)) (p_ant2 a r) f)) i j).
        rewrite loop_srf by lia.
        rewrite (acc_sum full ncorr _ _ (fun s => sandwich full (d_at e1 s (Z.to_nat (p_time a r - tmin)) (p_ant1 a r) f)
             (h_at x s r f) (d_at e2 s (Z.to_nat (p_time a r - tmin)) (p_ant2 a r) f))); [ring| |exact C].
        intros s jj i' k' C'. unfold g. now rewrite jm3_const.
      + set (g := fun s r f => jones_mul2 (jt_of full) true ncorr (d_at e1 s (Z.to_nat (p_time a r - tmin)) (p_ant1 a r) f)
             (d_at e2 s (Z.to_nat (p_time a r - tmin)) (p_ant2 a r) f)).
        change (for_ (d_src e1) (fun s => for_ (p_nrow a) (fun r => for_ (d_chan e1) (fun f o => at_rf o r f (g s r f))))
                  (fun _ _ _ _ => 0) r f i j = jsum (d_src e1) (fun s => sandwich full (d_at e1 s (Z.to_nat (p_time a r - tmin)) (p_ant1 a r) f)
             (jone full) (d_at e2 s (Z.to_nat (p_time a r - tmin)) (p_ant2 a r) f)) i j).
        rewrite loop_srf by lia.
        rewrite (acc_sum full ncorr _ _ (fun s => sandwich full (d_at e1 s (Z.to_nat (p_time a r - tmin)) (p_ant1 a r) f)
             (jone full) (d_at e2 s (Z.to_nat (p_time a r - tmin)) (p_ant2 a r) f))); [ring| |exact C].
        intros s jj i' k' C'. unfold g. now rewrite jm2_spec.
    - destruct (p_coh a) as [x|]; [|reflexivity].
      destruct (S3 x eq_refl) as [_ [_ [Hro [Hc Hco]]]]. rewrite Hco.
      set (g := fun s r f (jj : jones K) => match jt_of full with
            | J_2X2 => for_ 2 (fun c1 => for_ 2 (fun c2 j => put true j c1 c2 (h_at x s r f c1 c2))) jj
            | _ => for_ ncorr (fun c j => put true j c 0 (h_at x s r f c 0%nat)) jj end).
      change (for_ (h_src x) (fun s => for_ (h_row x) (fun r => for_ (h_chan x) (fun f o => at_rf o r f (g s r f))))
                  (fun _ _ _ _ => 0) r f i j = jsum (h_src x) (fun s => h_at x s r f) i j).
      rewrite loop_srf by lia.
      rewrite (acc_sum full ncorr _ _ (fun s => h_at x s r f)); [ring| |exact C].
      intros s jj i' k' C'. unfold g. now rewrite coh_put.
  Qed.

  Theorem predict_vis_spec full nsrc nchan ncorr (a : predict_in K) :
    shapes full nsrc nchan ncorr a -> paired (p_dde1 a) (p_dde2 a) -> paired (p_die1 a) (p_die2 a) ->
    supplied a -> 0 < p_nrow a ->
    exists out, predict_vis a = Ok out /\
      v_ndim out = (if full then 4 else 3)%nat /\ v_row out = p_nrow a /\ v_chan out = nchan /\ v_corr out = ncorr /\
      forall tmin, is_min (p_nrow a) (p_time a) tmin ->
      forall r f, r < p_nrow a -> f < nchan ->
        jeq full ncorr (v_at out r f) (measurement full (Z.to_nat (p_time a r - tmin)) a r f).
  Proof.
    intros Sh P1 P2 Sup Hn. unfold predict_vis.
    destruct (checks_ok _ _ _ _ a Sh P1 P2) as [fl E]. rewrite E. cbn [bind].
    rewrite (jones_type_ok _ _ _ _ a Sh Sup). cbn [bind].
    rewrite (shape_ok _ _ _ _ a Sh P1 P2 Sup). cbn [bind].
    destruct (Nat.eqb_spec (p_nrow a) 0); [lia|]. eexists. split; [reflexivity|].
    cbn [v_ndim v_row v_chan v_corr v_at]. split; [destruct full; reflexivity|].
    split; [reflexivity|]. split; [reflexivity|]. split; [reflexivity|].
    intros tmin Hm r f Hr Hf.
    rewrite <- (is_min_unique _ _ _ _ (zmin_is_min _ (p_time a) Hn) Hm).
    set (tm := zmin (p_nrow a) (p_time a)). unfold measurement.
    set (t := Z.to_nat (p_time a r - tm)).
    assert (A : jeq full ncorr (add_coh (p_bvis a) (sum_coherencies (jt_of full) ncorr (p_nrow a) (p_time a) (p_ant1 a) (p_ant2 a)
       (p_dde1 a) (p_coh a) (p_dde2 a) tm (fun _ _ _ _ => 0)) r f)
       (jadd (source_term full t a r f) match p_bvis a with Some b => v_at b r f | None => jzero end)).
    { intros i j C. unfold add_coh, jadd.
      destruct (p_bvis a) as [b|]; rewrite (sum_coherencies_spec full nsrc nchan ncorr a tm r f i j Sh P1 Hr Hf C); [reflexivity|].
      unfold jzero. fold t. ring. }
    unfold apply_dies. unfold paired in P2.
    destruct (p_die1 a) as [g1|]; destruct (p_die2 a) as [g2|];
      try (exfalso; destruct P2 as [P P']; (discriminate (P eq_refl) || discriminate (P' eq_refl)));
      [|exact A].
    intros i j C.
    match goal with |- for_ _ ?body ?ob r f i j = _ =>
      change (for_ (p_nrow a) (fun r => for_ nchan (fun f o => at_rf o r f
        ((fun r f => jones_mul3 (jt_of full) false ncorr (g_at g1 (Z.to_nat (p_time a r - tm)) (p_ant1 a r) f) (fun out => out)
                   (g_at g2 (Z.to_nat (p_time a r - tm)) (p_ant2 a r) f)) r f))) ob r f i j =
          sandwich full (g_at g1 t (p_ant1 a r) f) (jadd (source_term full t a r f) match p_bvis a with Some b => v_at b r f | None => jzero end)
            (g_at g2 t (p_ant2 a r) f) i j) end.
    rewrite loop_rf. destruct (Nat.ltb_spec r (p_nrow a)); [|lia]. destruct (Nat.ltb_spec f nchan); [|lia]. cbn [andb].
    rewrite jm3_self by exact C. fold t. exact (sandwich_ext full ncorr _ _ _ _ A i j C).
  Qed.
End Proofs.
