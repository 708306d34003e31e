(* C120: corrupting and subtracting again, in arithmetic that rounds. *)
From Coq Require Import Reals Lra Lia.
From Verif Require Import Prelude PreludeFacts CRing CField CplxR CplxF PredictModel PredictSpec PredictProofs CalModel CalSpec CalProofs
  RoundModel RoundSpec RoundProofs RcalSpec RcalProofs.
Open Scope nat_scope.

Lemma model_vis_type jn mn mode : check_type jn mn VT_model = Ok mode -> check_type jn (mode_ndim mode) VT_vis = Ok mode.
Proof.
  unfold check_type. cbn [bind]. destruct (Nat.eqb_spec mn 4) as [->|].
  - destruct (Nat.eqb jn 5) eqn:E; cbn [negb]; intros H; try discriminate; injection H as <-. reflexivity.
  - destruct (Nat.eqb_spec mn 5) as [->|]; [|discriminate].
    destruct (Nat.eqb jn 5) eqn:E; [intros H; injection H as <-; reflexivity|].
    destruct (Nat.eqb jn 6) eqn:E6; [intros H; injection H as <-; reflexivity|discriminate].
Qed.

Section Again.
  Context (fl : R -> R) (u : R) (Hu : roundoff fl u) (dv : R * R -> R * R -> R * R) (iv : R * R -> R * R).
  Notation FF := (rounded_field fl dv iv).
  Lemma size_triangle (x y : R * R) : (size x <= apart x y + size y)%R.
  Proof.
    unfold size, apart. pose proof (Rabs_triang (fst x - fst y) (fst y)) as A. pose proof (Rabs_triang (snd x - snd y) (snd y)) as B.
    replace (fst x - fst y + fst y)%R with (fst x) in A by ring. replace (snd x - snd y + snd y)%R with (snd x) in B by ring. lra.
  Qed.
  Lemma size_exact mode n (g : gain_arr RCF) (m : model_arr RCF) ant1 ant2 t r f i j : corr_ok (mode_full mode) n i j ->
    (size (corrupted mode g m ant1 ant2 t r f i j) <= corrupted mode (size_gain g) (size_model m) ant1 ant2 t r f i j)%R.
  Proof.
    intros C.
    pose proof (corrupt_near fl u Hu dv iv mode n (m_dir m) (j_at g t (ant1 r) f) (m_at m r f) (j_at g t (ant2 r) f) i j C 7 (fun _ _ => c0) (0, 0)%R 0%R
      (Nat.le_refl 7) (near_0 fl u Hu 7)) as [_ N].
    rewrite (exact_sum mode n), (size_sum mode n) in N by exact C. rewrite Rplus_0_l in N.
    match type of N with (size (cadd (0, 0)%R ?z) <= _)%R => replace (cadd (c := RC) (0, 0)%R z) with z in N by (destruct z; cbn; f_equal; ring) end.
    exact N.
  Qed.

  Theorem round_trip n tbi tbc ant1 ant2 (g : gain_arr RCF) (m : model_arr RCF) mode tmin :
    check_type (j_ndim g) (m_ndim m) VT_model = Ok mode -> 0 < n -> is_min n tbi tmin -> bins_disjoint n tbi tmin tbc ->
    exists tbi' v, corrupt_vis n tbi tbc ant1 ant2 (stored_gain fl dv iv g) (stored_model fl dv iv m) = Ok (tbi', v) /\
      forall flag, exists tbi'' out, residual_vis n tbi' tbc ant1 ant2 (stored_gain fl dv iv g) v flag (stored_model fl dv iv m) = Ok (tbi'', out) /\
      forall t r f i j, t < n -> in_bin tbi tmin tbc t r -> f < m_chan m -> ~ flagged (mode_full mode) (m_corr m) (flag r f) ->
        corr_ok (mode_full mode) (m_corr m) i j ->
        let e := gamma u (m_dir m + 7) in
        (size (v_at out r f i j) <= e * (3 + e) * corrupted mode (size_gain g) (size_model m) ant1 ant2 t r f i j)%R.
  Proof.
    intros Hc Hn Hm Hd.
    destruct (corrupt_vis_raw n tbi tbc ant1 ant2 (stored_gain fl dv iv g) (stored_model fl dv iv m) mode tmin Hc Hn Hm Hd)
      as (tbi' & v & E & T & V1 & V2 & V3 & V4 & _).
    destruct (corrupt_rounding fl u Hu dv iv n tbi tbc ant1 ant2 g m mode tmin Hc Hn Hm Hd) as (tb & v2 & E2 & B).
    rewrite E in E2. injection E2 as <- <-. exists tbi', v. split; [exact E|]. intros flag.
    set (w := map_vis (K := FF) (K' := RCF) (fun z => z) v).
    assert (Ew : stored_vis fl dv iv w = v) by (destruct v; reflexivity).
    assert (Hin : forall t r, in_bin tbi' 0 tbc t r <-> in_bin tbi tmin tbc t r) by (intros t r; unfold in_bin; rewrite T; lia).
    assert (Hm' : is_min n tbi' 0).
    { destruct Hm as [[k [Hk Ek]] Hm]. split; [exists k; split; [exact Hk|rewrite T; lia]|]. intros k' Hk'. rewrite T. pose proof (Hm k' Hk'). lia. }
    destruct (residual_rounding fl u Hu dv iv n tbi' tbc ant1 ant2 g w flag m mode 0%Z) as (tbi'' & out & E' & D).
    { cbn [v_ndim w map_vis]. rewrite V1. exact (model_vis_type _ _ _ Hc). } { exact Hn. } { exact Hm'. }
    { intros t t' r Ht Ht' H1 H2. apply Hin in H1. apply Hin in H2. exact (Hd t t' r Ht Ht' H1 H2). }
    rewrite Ew in E'. exists tbi'', out. split; [exact E'|]. intros t r f i j Ht Hb Hf Fl C. cbv zeta.
    assert (C' : corr_ok (mode_full mode) (v_corr w) i j) by (cbn [w v_corr map_vis]; rewrite V4; exact C).
    pose proof (B t r f i j Ht Hb Hf C) as B1.
    assert (D1 : (apart (v_at out r f i j) (jsub (v_at w r f) (corrupted mode g m ant1 ant2 t r f) i j) <=
       gamma u (m_dir m + 7) * (size (v_at w r f i j) + corrupted mode (size_gain g) (size_model m) ant1 ant2 t r f i j))%R).
    { apply D; [exact Ht|now apply Hin|cbn [w v_chan map_vis]; rewrite V3; exact Hf| |exact C']. cbn [w v_corr map_vis]. rewrite V4. exact Fl. }
    pose proof (size_exact mode (m_corr m) g m ant1 ant2 t r f i j C) as S1.
    set (S := corrupted mode (size_gain g) (size_model m) ant1 ant2 t r f i j : R) in *.
    pose proof (size_triangle (v_at w r f i j) (corrupted mode g m ant1 ant2 t r f i j)) as T1.
    pose proof (size_triangle (v_at out r f i j) (jsub (v_at w r f) (corrupted mode g m ant1 ant2 t r f) i j)) as T2.
    assert (T3 : (size (jsub (v_at w r f) (corrupted mode g m ant1 ant2 t r f) i j) = apart (v_at w r f i j) (corrupted mode g m ant1 ant2 t r f i j))%R) by reflexivity.
    change (v_at w r f i j) with (v_at v r f i j) in *. rewrite T3 in T2.
    assert (G : (0 <= gamma u (m_dir m + 7))%R).
    { pose proof (grow_ge1 fl u Hu (m_dir m + 7)) as G. unfold grow in G. unfold gamma. lra. }
    set (e := gamma u (m_dir m + 7)) in *.
    assert (0 <= S)%R by (pose proof (size_pos (corrupted mode g m ant1 ant2 t r f i j)); lra).
    change (v_at w r f) with (v_at v r f) in *.
    assert (Z1 : (size (v_at v r f i j) + S <= (2 + e) * S)%R) by lra.
    assert (Z2 : (e * (size (v_at v r f i j) + S) <= e * ((2 + e) * S))%R) by (apply Rmult_le_compat_l; assumption).
    lra.
  Qed.
End Again.
