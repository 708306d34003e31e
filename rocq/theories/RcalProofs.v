(* C120: rounding errors of corrupt_vis and residual_vis. *)
From Coq Require Import Reals Lra Lia Field.
From Verif Require Import Prelude PreludeFacts CRing CField CplxR CplxF PredictModel PredictSpec PredictProofs CalModel CalSpec CalProofs
  RoundModel RoundSpec RoundProofs RcalSpec.
Open Scope nat_scope.

(* one direction, as it is computed *)
Section Term.
  Context {F : fops}.
  Open Scope K_scope.
  Definition dir_term (mode : cmode) (a m b : jones F) (i j : nat) : F :=
    match mode with
    | DIAG_DIAG => a i 0%nat * m i 0%nat * cconj (b i 0%nat)
    | DIAG => a i 0%nat * m i j * cconj (b j 0%nat)
    | FULL => a i 0%nat * m 0%nat 0%nat * cconj (b j 0%nat) + a i 1%nat * m 1%nat 0%nat * cconj (b j 0%nat)
              + a i 0%nat * m 0%nat 1%nat * cconj (b j 1%nat) + a i 1%nat * m 1%nat 1%nat * cconj (b j 1%nat)
    end.
  Ltac two_cases i j := destruct i as [|[|i]]; destruct j as [|[|j]]; try lia.
  Lemma corrupt_dir_term mode n a m b (o : jones F) i j : corr_ok (mode_full mode) n i j ->
    corrupt_dir mode n a m b o i j = o i j + dir_term mode a m b i j.
  Proof.
    destruct mode; cbn [mode_full]; intros H.
    - destruct H as [Hi ->]. unfold corrupt_dir. rewrite (diag_loop true n (fun c _ => a c 0%nat * m c 0%nat * cconj (b c 0%nat))).
      destruct (Nat.ltb_spec i n); [reflexivity|lia].
    - destruct H as [Hi Hj]. unfold corrupt_dir. two_cases i j; rewrite !put_at; reflexivity.
    - destruct H as [Hi Hj]. unfold corrupt_dir. cbv zeta. two_cases i j; rewrite !put_at; reflexivity.
  Qed.
  Lemma subtract_dir_term mode n a m b (o : jones F) i j : corr_ok (mode_full mode) n i j ->
    subtract_dir mode n a m b o i j = o i j - dir_term mode a m b i j.
  Proof.
    destruct mode; cbn [mode_full]; intros H.
    - destruct H as [Hi ->]. unfold subtract_dir. rewrite (sub_loop n (fun c => a c 0%nat * m c 0%nat * cconj (b c 0%nat))).
      destruct (Nat.ltb_spec i n); [reflexivity|lia].
    - destruct H as [Hi Hj]. unfold subtract_dir. two_cases i j; rewrite !psub_at; reflexivity.
    - destruct H as [Hi Hj]. unfold subtract_dir. cbv zeta. two_cases i j; rewrite !psub_at; reflexivity.
  Qed.
  Context (L : claws F).
  Add Ring Fring : (law_ring F L).
  Lemma dir_term_exact mode n a m b i j : corr_ok (mode_full mode) n i j -> dir_term mode a m b i j = gsandwich mode a m b i j.
  Proof.
    destruct mode; cbn [mode_full]; intros H; unfold dir_term, gsandwich, sandwich, jprod, jherm, jdiag.
    - destruct H as [Hi ->]. ring.
    - destruct H as [Hi Hj]. cbn [csum]. two_cases i j; cbn [Nat.eqb]; rewrite ?(conj_0 L); ring.
    - destruct H as [Hi Hj]. cbn [csum]. two_cases i j; ring.
  Qed.
End Term.

Section Rcal.
  Context (fl : R -> R) (u : R) (Hu : roundoff fl u) (dv : R * R -> R * R -> R * R) (iv : R * R -> R * R).
  Notation FF := (rounded_field fl dv iv).
  Notation near := (near u).

  Lemma near_opp k (x' x : R * R) m : near k x' x m -> near k (copp (c := rounded fl) x') (copp (c := RC) x) m.
  Proof.
    intros [X1 X2]. split; unfold apart, size in *; cbn.
    - replace (- fst x' - - fst x)%R with (- (fst x' - fst x))%R by ring. replace (- snd x' - - snd x)%R with (- (snd x' - snd x))%R by ring.
      rewrite !Rabs_Ropp. exact X1.
    - rewrite !Rabs_Ropp. exact X2.
  Qed.
  Lemma near_sub k x' x m y' y n : near k x' x m -> near k y' y n ->
    near (S k) (csub (c := rounded fl) x' y') (csub (c := RC) x y) (m + n).
  Proof. intros X Y. exact (near_add fl u Hu k x' x m _ _ n X (near_opp k y' y n Y)). Qed.

  Lemma near_term mode (a m b : jones RCF) i j :
    near 7 (dir_term (F := FF) mode a m b i j) (dir_term (F := RCF) mode a m b i j)
      (dir_term (F := RRF) mode (fun i j => size (a i j)) (fun i j => size (m i j)) (fun i j => size (b i j)) i j).
  Proof.
    assert (P : forall x y z : R * R, near 4 (cmul (c := rounded fl) (cmul (c := rounded fl) x y) (cconj (c := rounded fl) z))
       (cmul (c := RC) (cmul (c := RC) x y) (cconj (c := RC) z)) (size x * size y * size z)).
    { intros x y z. apply (near_mul fl u Hu 2 0); [apply (near_mul fl u Hu 0 0); apply (near_self fl u Hu)|]. apply (near_conj fl), (near_self fl u Hu). }
    assert (M : forall x' x s, near 4 x' x s -> forall k, 4 <= k -> near k x' x s).
    { intros x' x s N k Hk. eapply (near_mono fl u Hu); eauto. }
    destruct mode; cbn [dir_term].
    - apply (M _ _ _ (P _ _ _)). lia.
    - apply (M _ _ _ (P _ _ _)). lia.
    - repeat (apply (near_add fl u Hu); [|apply (M _ _ _ (P _ _ _)); lia]). apply P.
  Qed.

  Section Dirs.
    Context (mode : cmode) (n nd : nat) (a m b : nat -> jones RCF) (i j : nat) (C : corr_ok (mode_full mode) n i j).
    Notation sz x := (fun s (i j : nat) => size (x s i j)) (only parsing).
    Definition total : R := csum (K := RR) nd (fun s => dir_term (F := RRF) mode (sz a s) (sz m s) (sz b s) i j).
    Lemma corrupt_near k (o : jones FF) x s : 7 <= k -> near k (o i j) x s ->
      near (k + nd) (corrupt_mul (F := FF) mode n nd a m b o i j) (cadd (c := RC) x (csum (K := RC) nd (fun s => dir_term (F := RCF) mode (a s) (m s) (b s) i j))) (s + total).
    Proof.
      intros Hk N. unfold corrupt_mul, total. induction nd as [|nd' IH].
      - cbn [for_ csum]. rewrite Nat.add_0_r. replace (cadd (c := RC) x c0) with x by (destruct x; cbn; f_equal; ring).
        match goal with |- near _ _ _ ?z => change z with (s + 0)%R end. rewrite Rplus_0_r. exact N.
      - rewrite for_S, corrupt_dir_term by exact C. cbn [csum].
        replace (k + S nd')%nat with (S (k + nd')) by lia.
        match goal with |- near _ _ (cadd x (cadd ?p ?q)) (s + cadd (c := RR) ?p2 ?q2)%R =>
          replace (cadd (c := RC) x (cadd p q)) with (cadd (c := RC) (cadd (c := RC) x p) q) by (destruct x, p, q; cbn; f_equal; ring);
          replace (s + cadd (c := RR) p2 q2)%R with ((s + p2) + q2)%R by (cbn; ring) end.
        apply (near_add fl u Hu); [exact IH|]. eapply (near_mono fl u Hu); [|apply near_term]. lia.
    Qed.
    Lemma subtract_near k (o : jones FF) x s : 7 <= k -> near k (o i j) x s ->
      near (k + nd) (for_ nd (fun s o => subtract_dir (F := FF) mode n (a s) (m s) (b s) o) o i j)
        (csub (c := RC) x (csum (K := RC) nd (fun s => dir_term (F := RCF) mode (a s) (m s) (b s) i j))) (s + total).
    Proof.
      intros Hk N. unfold total. induction nd as [|nd' IH].
      - cbn [for_ csum]. rewrite Nat.add_0_r. replace (csub (c := RC) x c0) with x by (destruct x; cbn; f_equal; ring).
        match goal with |- near _ _ _ ?z => change z with (s + 0)%R end. rewrite Rplus_0_r. exact N.
      - rewrite for_S, subtract_dir_term by exact C. cbn [csum].
        replace (k + S nd')%nat with (S (k + nd')) by lia.
        match goal with |- near _ _ (csub x (cadd ?p ?q)) (s + cadd (c := RR) ?p2 ?q2)%R =>
          replace (csub (c := RC) x (cadd p q)) with (csub (c := RC) (csub (c := RC) x p) q) by (destruct x, p, q; cbn; f_equal; ring);
          replace (s + cadd (c := RR) p2 q2)%R with ((s + p2) + q2)%R by (cbn; ring) end.
        apply near_sub; [exact IH|]. eapply (near_mono fl u Hu); [|apply near_term]. lia.
    Qed.
  End Dirs.

  Lemma exact_sum mode n (g : gain_arr RCF) (m : model_arr RCF) ant1 ant2 t r f i j : corr_ok (mode_full mode) n i j ->
    csum (K := RC) (m_dir m) (fun s => dir_term (F := RCF) mode (j_at g t (ant1 r) f s) (m_at m r f s) (j_at g t (ant2 r) f s) i j) =
    corrupted mode g m ant1 ant2 t r f i j.
  Proof. intros C. unfold corrupted, jsum. apply csum_ext. intros s Hs. apply (dir_term_exact (F := RCF) RC_laws mode n). exact C. Qed.
  Lemma size_sum mode n (g : gain_arr RCF) (m : model_arr RCF) ant1 ant2 t r f i j : corr_ok (mode_full mode) n i j ->
    total mode (m_dir m) (j_at g t (ant1 r) f) (m_at m r f) (j_at g t (ant2 r) f) i j =
    corrupted mode (size_gain g) (size_model m) ant1 ant2 t r f i j.
  Proof. intros C. unfold total, corrupted, jsum. apply (csum_ext (K := RR)). intros s Hs. apply (dir_term_exact (F := RRF) RR_laws mode n). exact C. Qed.

  Theorem corrupt_rounding n tbi tbc ant1 ant2 (g : gain_arr RCF) (m : model_arr RCF) mode tmin :
    check_type (j_ndim g) (m_ndim m) VT_model = Ok mode -> 0 < n -> is_min n tbi tmin -> bins_disjoint n tbi tmin tbc ->
    exists tbi' out, corrupt_vis n tbi tbc ant1 ant2 (stored_gain fl dv iv g) (stored_model fl dv iv m) = Ok (tbi', out) /\
      forall t r f i j, t < n -> in_bin tbi tmin tbc t r -> f < m_chan m -> corr_ok (mode_full mode) (m_corr m) i j ->
        (apart (v_at out r f i j) (corrupted mode g m ant1 ant2 t r f i j) <=
         gamma u (m_dir m + 7) * corrupted mode (size_gain g) (size_model m) ant1 ant2 t r f i j)%R.
  Proof.
    intros Hc Hn Hm Hd.
    destruct (corrupt_vis_raw n tbi tbc ant1 ant2 (stored_gain fl dv iv g) (stored_model fl dv iv m) mode tmin Hc Hn Hm Hd)
      as (tbi' & out & E & _ & _ & _ & _ & _ & V).
    exists tbi', out. split; [exact E|]. intros t r f i j Ht Hb Hf C. destruct (V r f Hf) as [V1 _]. rewrite (V1 t Ht Hb).
    pose proof (corrupt_near mode (m_corr m) (m_dir m) (j_at g t (ant1 r) f) (m_at m r f) (j_at g t (ant2 r) f) i j C 7 (fun _ _ => c0) (0, 0)%R 0%R
      (Nat.le_refl 7) (near_0 fl u Hu 7)) as [N _].
    rewrite (exact_sum mode (m_corr m)), (size_sum mode (m_corr m)) in N by exact C.
    rewrite Rplus_0_l in N. rewrite Nat.add_comm.
    match type of N with (apart _ (cadd (0, 0)%R ?z) <= _)%R => replace (cadd (c := RC) (0, 0)%R z) with z in N by (destruct z; cbn; f_equal; ring) end.
    exact N.
  Qed.

  Theorem residual_rounding n tbi tbc ant1 ant2 (g : gain_arr RCF) (v : vis_arr RCF) flag (m : model_arr RCF) mode tmin :
    check_type (j_ndim g) (v_ndim v) VT_vis = Ok mode -> 0 < n -> is_min n tbi tmin -> bins_disjoint n tbi tmin tbc ->
    exists tbi' out, residual_vis n tbi tbc ant1 ant2 (stored_gain fl dv iv g) (stored_vis fl dv iv v) flag (stored_model fl dv iv m) = Ok (tbi', out) /\
      forall t r f i j, t < n -> in_bin tbi tmin tbc t r -> f < v_chan v -> ~ flagged (mode_full mode) (v_corr v) (flag r f) ->
        corr_ok (mode_full mode) (v_corr v) i j ->
        (apart (v_at out r f i j) (jsub (v_at v r f) (corrupted mode g m ant1 ant2 t r f) i j) <=
         gamma u (m_dir m + 7) * (size (v_at v r f i j) + corrupted mode (size_gain g) (size_model m) ant1 ant2 t r f i j))%R.
  Proof.
    intros Hc Hn Hm Hd.
    destruct (residual_vis_raw n tbi tbc ant1 ant2 (stored_gain fl dv iv g) (stored_vis fl dv iv v) flag (stored_model fl dv iv m) mode tmin Hc Hn Hm Hd)
      as (tbi' & out & E & _ & _ & _ & _ & _ & V).
    exists tbi', out. split; [exact E|]. intros t r f i j Ht Hb Hf Fl C. destruct (V r f Hf) as [V1 _]. rewrite (V1 t Ht Hb Fl).
    pose proof (subtract_near mode (v_corr v) (m_dir m) (j_at g t (ant1 r) f) (m_at m r f) (j_at g t (ant2 r) f) i j C 7 (v_at v r f) (v_at v r f i j) (size (v_at v r f i j))
      (Nat.le_refl 7) (near_self fl u Hu 7 _)) as [N _].
    rewrite (exact_sum mode (v_corr v)), (size_sum mode (v_corr v)) in N by exact C. rewrite Nat.add_comm. exact N.
  Qed.
End Rcal.
