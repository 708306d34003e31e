(* C120: what rounding does to corrupted and to residual visibilities. *)
From Coq Require Import Reals Lra Lia.
From Verif Require Import Prelude PreludeFacts CRing CField CplxR CplxF PredictModel PredictSpec CalModel CalSpec
  RoundModel RoundSpec RoundProps RcalSpec RcalProofs RcalProofs2 RcalProofs3.
Open Scope nat_scope.

(* Whatever the rounding of single operations, as long as its relative error is at most u, every corrupted visibility is off by
   at most gamma u (number of directions + 7) times the same formula evaluated on the sizes of the entries.  corrupted is the
   exact sum over directions of G_p M G_q^H. *)
Theorem C120_corrupt fl u dv iv n tbi tbc ant1 ant2 (g : gain_arr RCF) (m : model_arr RCF) mode tmin : roundoff fl u ->
  check_type (j_ndim g) (m_ndim m) VT_model = Ok mode -> 0 < n -> is_min n tbi tmin -> bins_disjoint n tbi tmin tbc ->
  exists tbi' out, corrupt_vis n tbi tbc ant1 ant2 (stored_gain fl dv iv g) (stored_model fl dv iv m) = Ok (tbi', out) /\
    forall t r f i j, t < n -> in_bin tbi tmin tbc t r -> f < m_chan m -> corr_ok (mode_full mode) (m_corr m) i j ->
      (apart (v_at out r f i j) (corrupted mode g m ant1 ant2 t r f i j) <=
       gamma u (m_dir m + 7) * corrupted mode (size_gain g) (size_model m) ant1 ant2 t r f i j)%R.
Proof. intros Hu. exact (corrupt_rounding fl u Hu dv iv n tbi tbc ant1 ant2 g m mode tmin). Qed.

(* The residual of an unflagged visibility: the visibility itself joins the sizes. *)
Theorem C120_residual fl u dv iv n tbi tbc ant1 ant2 (g : gain_arr RCF) (v : vis_arr RCF) flag (m : model_arr RCF) mode tmin : roundoff fl u ->
  check_type (j_ndim g) (v_ndim v) VT_vis = Ok mode -> 0 < n -> is_min n tbi tmin -> bins_disjoint n tbi tmin tbc ->
  exists tbi' out, residual_vis n tbi tbc ant1 ant2 (stored_gain fl dv iv g) (stored_vis fl dv iv v) flag (stored_model fl dv iv m) = Ok (tbi', out) /\
    forall t r f i j, t < n -> in_bin tbi tmin tbc t r -> f < v_chan v -> ~ flagged (mode_full mode) (v_corr v) (flag r f) ->
      corr_ok (mode_full mode) (v_corr v) i j ->
      (apart (v_at out r f i j) (jsub (v_at v r f) (corrupted mode g m ant1 ant2 t r f) i j) <=
       gamma u (m_dir m + 7) * (size (v_at v r f i j) + corrupted mode (size_gain g) (size_model m) ant1 ant2 t r f i j))%R.
Proof. intros Hu. exact (residual_rounding fl u Hu dv iv n tbi tbc ant1 ant2 g v flag m mode tmin). Qed.

(* Corrupting a model and subtracting it again, with the row indices that the first call left behind, leaves rounding errors. *)
Theorem C120_round_trip fl u dv iv n tbi tbc ant1 ant2 (g : gain_arr RCF) (m : model_arr RCF) mode tmin : roundoff fl u ->
  check_type (j_ndim g) (m_ndim m) VT_model = Ok mode -> 0 < n -> is_min n tbi tmin -> bins_disjoint n tbi tmin tbc ->
  exists tbi' v, corrupt_vis n tbi tbc ant1 ant2 (stored_gain fl dv iv g) (stored_model fl dv iv m) = Ok (tbi', v) /\
    forall flag, exists tbi'' out, residual_vis n tbi' tbc ant1 ant2 (stored_gain fl dv iv g) v flag (stored_model fl dv iv m) = Ok (tbi'', out) /\
    forall t r f i j, t < n -> in_bin tbi tmin tbc t r -> f < m_chan m -> ~ flagged (mode_full mode) (m_corr m) (flag r f) ->
      corr_ok (mode_full mode) (m_corr m) i j ->
      let e := gamma u (m_dir m + 7) in
      (size (v_at out r f i j) <= e * (3 + e) * corrupted mode (size_gain g) (size_model m) ant1 ant2 t r f i j)%R.
Proof. intros Hu. exact (round_trip fl u Hu dv iv n tbi tbc ant1 ant2 g m mode tmin). Qed.

(* In double precision the residual is not always zero. *)
Theorem C120_zero_residual_refuted : ~ (forall dv iv (g : gain_arr RCF) (m : model_arr RCF) tbi' v tbi'' out,
  let g' := stored_gain (nearest 53) dv iv g in let m' := stored_model (nearest 53) dv iv m in
  corrupt_vis 1 (fun _ => 0%Z) (fun _ => 1) (fun _ => 0) (fun _ => 1) g' m' = Ok (tbi', v) ->
  residual_vis 1 tbi' (fun _ => 1) (fun _ => 0) (fun _ => 1) g' v (fun _ _ _ _ => false) m' = Ok (tbi'', out) ->
  v_at out 0 0 0 0 = (0, 0)%R).
Proof. exact not_exact. Qed.

(* Three directions in double precision: the sum 1 - 2 + 4 with a bound of ten operations on 1 + 2 + 4. *)
Example three_directions : exists tbi' out,
  corrupt_vis 1 (fun _ => 0%Z) (fun _ => 1) (fun _ => 0) (fun _ => 1)
    (stored_gain (nearest 53) (fun x _ => x) (fun x => x) (unit_gains 3)) (stored_model (nearest 53) (fun x _ => x) (fun x => x) (directions [1; -2; 4]%R)) = Ok (tbi', out) /\
  (apart (v_at out 0%nat 0%nat 0%nat 0%nat) (3, 0) <= gamma (/ 2 ^ 53) 10 * 7)%R.
Proof.
  destruct (C120_corrupt (nearest 53) (/ 2 ^ 53)%R (fun x _ => x) (fun x => x) 1 (fun _ => 0%Z) (fun _ => 1) (fun _ => 0) (fun _ => 1)
    (unit_gains 3) (directions [1; -2; 4]%R) DIAG_DIAG 0%Z C113_double) as (tbi' & out & E & H); try reflexivity.
  - lia.
  - split; [exists 0; split; [lia|reflexivity]|]. intros. lia.
  - intros t t' r Ht Ht' _ _. lia.
  - exists tbi', out. split; [exact E|]. specialize (H 0 0 0 0 0 ltac:(lia)).
    assert (E1 : corrupted DIAG_DIAG (unit_gains 3) (directions [1; -2; 4]%R) (fun _ => 0) (fun _ => 1) 0 0 0 0 0 = (3, 0)%R) by (cbn; f_equal; ring).
    assert (E2 : corrupted DIAG_DIAG (size_gain (unit_gains 3)) (size_model (directions [1; -2; 4]%R)) (fun _ => 0) (fun _ => 1) 0 0 0 0 0 = 7%R).
    { cbn. unfold size. cbn. rewrite !Rabs_R0, Rabs_R1, (Rabs_pos_eq 4), (Rabs_left (-2)) by lra. ring. }
    rewrite E1, E2 in H. apply H; cbn; try lia. unfold in_bin. lia.
Qed.

Print Assumptions C120_corrupt.
Print Assumptions C120_residual.
Print Assumptions C120_round_trip.
Print Assumptions C120_zero_residual_refuted.
