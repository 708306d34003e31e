(* C36-C41: calibration utilities *)
From Coq Require Import QArith Qcanon.
From Verif Require Import Prelude CRing CField PredictModel PredictSpec NumpyModel AvgModel AvgSpec
  CalModel CalSpec CalProofs CalProofs2.
Open Scope nat_scope.

(* C36.  corrupt_vis: every row of a time bin gets sum_s G_p M G_q^H with the gains of that bin;
   rows outside all bins stay zero.  time_bin_indices is rebased in place by its minimum. *)
Theorem C36_corrupt_vis : forall {F : fops}, flaws F ->
  forall n tbi tbc ant1 ant2 (g : gain_arr F) (m : model_arr F) mode tmin,
  check_type (j_ndim g) (m_ndim m) VT_model = Ok mode ->
  0 < n -> is_min n tbi tmin -> bins_disjoint n tbi tmin tbc ->
  exists tbi' out, corrupt_vis n tbi tbc ant1 ant2 g m = Ok (tbi', out) /\
    (forall t, tbi' t = (tbi t - tmin)%Z) /\
    v_ndim out = (match mode with DIAG_DIAG => 3 | _ => 4 end) /\
    v_row out = m_row m /\ v_chan out = m_chan m /\ v_corr out = m_corr m /\
    forall r f, f < m_chan m ->
      (forall t, t < n -> in_bin tbi tmin tbc t r ->
         jeq (mode_full mode) (m_corr m) (v_at out r f) (corrupted mode g m ant1 ant2 t r f)) /\
      ((forall t, t < n -> ~ in_bin tbi tmin tbc t r) ->
         jeq (mode_full mode) (m_corr m) (v_at out r f) jzero).
Proof. intros F L. exact (corrupt_vis_spec L). Qed.

(* calling again with the array it has rebased gives the same visibilities *)
Theorem C36_rebasing_idempotent : forall {F : fops}, flaws F ->
  forall n tbi tbc ant1 ant2 (g : gain_arr F) (m : model_arr F) mode tmin tbi' v,
  check_type (j_ndim g) (m_ndim m) VT_model = Ok mode ->
  0 < n -> is_min n tbi tmin -> bins_disjoint n tbi tmin tbc ->
  corrupt_vis n tbi tbc ant1 ant2 g m = Ok (tbi', v) ->
  exists tbi'' v', corrupt_vis n tbi' tbc ant1 ant2 g m = Ok (tbi'', v') /\ (forall t, tbi'' t = tbi' t) /\
    forall r f, f < m_chan m -> jeq (mode_full mode) (m_corr m) (v_at v' r f) (v_at v r f).
Proof. intros F L. exact (corrupt_again L). Qed.

(* C37 *)
Theorem C37_correct_undoes_corrupt : forall {F : fops}, flaws F ->
  forall n tbi tbc ant1 ant2 (g : gain_arr F) (m : model_arr F) flag mode tmin,
  check_type (j_ndim g) (m_ndim m) VT_model = Ok mode ->
  m_dir m = 1 -> j_dir g = 1 -> j_tim g = n -> j_chan g = m_chan m ->
  0 < n -> is_min n tbi tmin -> bins_disjoint n tbi tmin tbc ->
  exists tbi' tbi'' v out,
    corrupt_vis n tbi tbc ant1 ant2 g m = Ok (tbi', v) /\
    correct_vis n tbi' tbc ant1 ant2 g v flag = Ok (tbi'', out) /\
    forall t r f, t < n -> in_bin tbi tmin tbc t r -> f < m_chan m ->
      gain_ok mode (m_corr m) (j_at g t (ant1 r) f 0) -> gain_ok mode (m_corr m) (j_at g t (ant2 r) f 0) ->
      ~ flagged (mode_full mode) (m_corr m) (flag r f) ->
      jeq (mode_full mode) (m_corr m) (v_at out r f) (m_at m r f 0).
Proof. intros F L. exact (correct_corrupt L). Qed.

Theorem C37_correct_vis : forall {F : fops}, flaws F ->
  forall n tbi tbc ant1 ant2 (g : gain_arr F) (v : vis_arr F) flag mode tmin,
  check_type (j_ndim g) (v_ndim v) VT_vis = Ok mode -> j_dir g = 1 -> j_tim g = n -> j_chan g = v_chan v ->
  0 < n -> is_min n tbi tmin -> bins_disjoint n tbi tmin tbc ->
  exists tbi' out, correct_vis n tbi tbc ant1 ant2 g v flag = Ok (tbi', out) /\
    v_ndim out = v_ndim v /\ v_row out = v_row v /\ v_chan out = v_chan v /\ v_corr out = v_corr v /\
    forall r f, f < v_chan v ->
      (forall t, t < n -> in_bin tbi tmin tbc t r -> ~ flagged (mode_full mode) (v_corr v) (flag r f) ->
         gain_ok mode (v_corr v) (j_at g t (ant1 r) f 0) -> gain_ok mode (v_corr v) (j_at g t (ant2 r) f 0) ->
         jeq (mode_full mode) (v_corr v)
           (gsandwich mode (j_at g t (ant1 r) f 0) (v_at out r f) (j_at g t (ant2 r) f 0)) (v_at v r f)) /\
      ((flagged (mode_full mode) (v_corr v) (flag r f) \/ forall t, t < n -> ~ in_bin tbi tmin tbc t r) ->
         jeq (mode_full mode) (v_corr v) (v_at out r f) jzero).
Proof. intros F L. exact (corrupt_correct L). Qed.

Theorem C37_one_direction_only : forall {F : fops} n tbi tbc ant1 ant2 (g : gain_arr F) (v : vis_arr F) flag mode,
  check_type (j_ndim g) (v_ndim v) VT_vis = Ok mode -> 1 < j_dir g ->
  correct_vis n tbi tbc ant1 ant2 g v flag = Raise ValueError.
Proof. intros F. exact correct_many_directions. Qed.

(* C38 *)
Theorem C38_residual_vis : forall {F : fops}, flaws F ->
  forall n tbi tbc ant1 ant2 (g : gain_arr F) (v : vis_arr F) flag (m : model_arr F) mode tmin,
  check_type (j_ndim g) (v_ndim v) VT_vis = Ok mode ->
  0 < n -> is_min n tbi tmin -> bins_disjoint n tbi tmin tbc ->
  exists tbi' out, residual_vis n tbi tbc ant1 ant2 g v flag m = Ok (tbi', out) /\
    (forall t, tbi' t = (tbi t - tmin)%Z) /\
    v_ndim out = v_ndim v /\ v_row out = v_row v /\ v_chan out = v_chan v /\ v_corr out = v_corr v /\
    forall r f, f < v_chan v ->
      (forall t, t < n -> in_bin tbi tmin tbc t r -> ~ flagged (mode_full mode) (v_corr v) (flag r f) ->
         jeq (mode_full mode) (v_corr v) (v_at out r f) (jsub (v_at v r f) (corrupted mode g m ant1 ant2 t r f))) /\
      ((flagged (mode_full mode) (v_corr v) (flag r f) \/ forall t, t < n -> ~ in_bin tbi tmin tbc t r) ->
         jeq (mode_full mode) (v_corr v) (v_at out r f) jzero).
Proof. intros F L. exact (residual_vis_spec L). Qed.

(* C39 *)
Theorem C39_chunkify_rows : forall nrow time upc, 0 < upc ->
  exists chunks idx cnts us, chunkify_rows nrow time upc = Ok (chunks, idx, cnts) /\
    distinct_times nrow time us /\
    length idx = length us /\ length cnts = length us /\
    (forall k, k < length us ->
       count_is nrow (fun r => time r = nth k us 0%Z) (nth k cnts 0) /\
       count_is nrow (fun r => (time r < nth k us 0)%Z) (nth k idx 0)) /\
    (forall c, c < length chunks <-> c * upc < length us) /\
    (forall c, c < length chunks ->
       count_is nrow (fun r => exists k, c * upc <= k < S c * upc /\ k < length us /\ time r = nth k us 0%Z) (nth c chunks 0)) /\
    list_sum chunks = nrow /\
    ((forall r r', r <= r' -> r' < nrow -> (time r <= time r')%Z) ->
       forall k r, k < length us -> r < nrow ->
         (nth k idx 0 <= r < nth k idx 0 + nth k cnts 0 <-> time r = nth k us 0%Z)).
Proof. exact chunkify_rows_main. Qed.

Theorem C39_zero_times_per_chunk : forall nrow time, chunkify_rows nrow time 0 = Raise ValueError.
Proof. exact chunkify_zero. Qed.

(* C40: every aligned block of the dask result is that part of the whole result.  Nothing is assumed of the arithmetic F: in
   floating point the two are the same numbers. *)
Theorem C40_chunked_corrupt : forall {F : fops},
  forall n tbi tbc ant1 ant2 (g : gain_arr F) (m : model_arr F) mode tmin ch nant,
  check_type (j_ndim g) (m_ndim m) VT_model = Ok mode ->
  0 < n -> is_min n tbi tmin -> bins_disjoint n tbi tmin tbc ->
  hd 0 (cc_jant ch) = nant -> hd 0 (cc_jdir ch) = j_dir g -> hd 0 (cc_mdir ch) = m_dir m ->
  list_sum (cc_chan ch) = m_chan m ->
  exists tbi' whole blocks, corrupt_vis n tbi tbc ant1 ant2 g m = Ok (tbi', whole) /\
    dask_corrupt_vis ch nant tbi tbc ant1 ant2 g m = Ok blocks /\
    forall rb, chunk_aligned n tbi tmin tbc ch rb -> forall cb, exists btbi b, blocks rb cb = Ok (btbi, b) /\
      v_row b = nth rb (cc_row ch) 0 /\ v_chan b = nth cb (cc_chan ch) 0 /\ v_ndim b = v_ndim whole /\ v_corr b = v_corr whole /\
      forall r f, r < nth rb (cc_row ch) 0 -> f < nth cb (cc_chan ch) 0 ->
        jeq (mode_full mode) (m_corr m) (v_at b r f) (v_at whole (off (cc_row ch) rb + r) (off (cc_chan ch) cb + f)).
Proof. intros F. exact dask_corrupt. Qed.

Theorem C40_chunked_residual : forall {F : fops},
  forall n tbi tbc ant1 ant2 (g : gain_arr F) (v : vis_arr F) flag (m : model_arr F) mode tmin ch nant,
  check_type (j_ndim g) (v_ndim v) VT_vis = Ok mode ->
  0 < n -> is_min n tbi tmin -> bins_disjoint n tbi tmin tbc ->
  hd 0 (cc_jant ch) = nant -> hd 0 (cc_jdir ch) = j_dir g -> hd 0 (cc_mdir ch) = m_dir m ->
  list_sum (cc_chan ch) = v_chan v ->
  exists tbi' whole blocks, residual_vis n tbi tbc ant1 ant2 g v flag m = Ok (tbi', whole) /\
    dask_residual_vis ch nant tbi tbc ant1 ant2 g v flag m = Ok blocks /\
    forall rb, chunk_aligned n tbi tmin tbc ch rb -> forall cb, exists btbi b, blocks rb cb = Ok (btbi, b) /\
      v_row b = nth rb (cc_row ch) 0 /\ v_chan b = nth cb (cc_chan ch) 0 /\ v_ndim b = v_ndim whole /\ v_corr b = v_corr whole /\
      forall r f, r < nth rb (cc_row ch) 0 -> f < nth cb (cc_chan ch) 0 ->
        jeq (mode_full mode) (v_corr v) (v_at b r f) (v_at whole (off (cc_row ch) rb + r) (off (cc_chan ch) cb + f)).
Proof. intros F. exact dask_residual. Qed.

Theorem C40_chunked_correct : forall {F : fops},
  forall n tbi tbc ant1 ant2 (g : gain_arr F) (v : vis_arr F) flag mode tmin ch nant,
  check_type (j_ndim g) (v_ndim v) VT_vis = Ok mode -> j_dir g <= 1 -> j_tim g = n -> j_chan g = v_chan v ->
  0 < n -> is_min n tbi tmin -> bins_disjoint n tbi tmin tbc ->
  hd 0 (cc_jant ch) = nant -> hd 0 (cc_jdir ch) = j_dir g ->
  list_sum (cc_chan ch) = v_chan v ->
  exists tbi' whole blocks, correct_vis n tbi tbc ant1 ant2 g v flag = Ok (tbi', whole) /\
    dask_correct_vis ch nant tbi tbc ant1 ant2 g v flag = Ok blocks /\
    forall rb, chunk_aligned n tbi tmin tbc ch rb -> forall cb, exists btbi b, blocks rb cb = Ok (btbi, b) /\
      v_row b = nth rb (cc_row ch) 0 /\ v_chan b = nth cb (cc_chan ch) 0 /\ v_ndim b = v_ndim whole /\ v_corr b = v_corr whole /\
      forall r f, r < nth rb (cc_row ch) 0 -> f < nth cb (cc_chan ch) 0 ->
        jeq (mode_full mode) (v_corr v) (v_at b r f) (v_at whole (off (cc_row ch) rb + r) (off (cc_chan ch) cb + f)).
Proof. intros F. exact dask_correct. Qed.

(* the output of chunkify_rows is a table with aligned chunks (upc times in each) that cover all rows *)
Theorem C40_chunkify_chunks_aligned : forall nrow time upc, 0 < upc ->
  forall chunks idx cnts, chunkify_rows nrow time upc = Ok (chunks, idx, cnts) ->
  bins_disjoint (length idx) (fun t => Z.of_nat (nth t idx 0)) 0 (fun t => nth t cnts 0) /\
  (0 < nrow -> 0 < length idx /\ is_min (length idx) (fun t => Z.of_nat (nth t idx 0)) 0%Z) /\
  (forall r, r < nrow -> exists t, t < length idx /\ in_bin (fun t => Z.of_nat (nth t idx 0)) 0 (fun t => nth t cnts 0) t r) /\
  forall c, c < length chunks ->
    aligned (length idx) (fun t => Z.of_nat (nth t idx 0)) 0 (fun t => nth t cnts 0)
            (c * upc) (Nat.min upc (length idx - c * upc)) (list_sum (firstn c chunks)) (nth c chunks 0).
Proof. exact chunkify_aligned. Qed.

(* gains in several chunks over antennas or directions, and models in several chunks over directions, are refused *)
Theorem C40_several_refused : forall {F : fops} ch nant tbi tbc ant1 ant2 (g : gain_arr F) (m : model_arr F) (v : vis_arr F) flag,
  (in_several (cc_jant ch) nant \/ in_several (cc_jdir ch) (j_dir g) ->
     dask_correct_vis ch nant tbi tbc ant1 ant2 g v flag = Raise ValueError) /\
  (in_several (cc_jant ch) nant \/ in_several (cc_jdir ch) (j_dir g) \/ in_several (cc_mdir ch) (m_dir m) ->
     dask_residual_vis ch nant tbi tbc ant1 ant2 g v flag m = Raise ValueError /\
     forall mode, check_type (j_ndim g) (m_ndim m) VT_model = Ok mode -> dask_corrupt_vis ch nant tbi tbc ant1 ant2 g m = Raise ValueError).
Proof. intros F. exact dask_several. Qed.
Example C40_several_case : in_several [2; 3] 5 /\ check_type 5 4 VT_model = Ok DIAG_DIAG.
Proof. split; [|reflexivity]. split; [reflexivity|]. split; [cbn; lia|]. repeat constructor. Qed.

(* C41 *)
Theorem C41_check_type : forall jn vn vt,
  match vt with
  | VT_vis => (check_type jn vn vt = Ok DIAG_DIAG <-> vn = 3 /\ jn = 5) /\
              (check_type jn vn vt = Ok DIAG <-> vn = 4 /\ jn = 5) /\
              (check_type jn vn vt = Ok FULL <-> vn = 4 /\ jn = 6) /\
              (check_type jn vn vt = Raise RuntimeError <-> ~ (vn = 3 /\ jn = 5) /\ ~ (vn = 4 /\ (jn = 5 \/ jn = 6)))
  | VT_model => (check_type jn vn vt = Ok DIAG_DIAG <-> vn = 4 /\ jn = 5) /\
              (check_type jn vn vt = Ok DIAG <-> vn = 5 /\ jn = 5) /\
              (check_type jn vn vt = Ok FULL <-> vn = 5 /\ jn = 6) /\
              (check_type jn vn vt = Raise RuntimeError <-> ~ (vn = 4 /\ jn = 5) /\ ~ (vn = 5 /\ (jn = 5 \/ jn = 6)))
  | VT_other => check_type jn vn vt = Raise ValueError
  end.
Proof. exact check_type_spec. Qed.

(* ---------- examples ---------- *)
(* two times (2 and 1 rows, first index 5), two antennas, full gains, one direction; the third
   row is flagged in one correlation *)
Definition gi (a b : Z) : GQ := Gq (Q2Qc (inject_Z a)) (Q2Qc (inject_Z b)).
Definition cx_tbi : arr Z := of_list 0%Z [5; 7]%Z.
Definition cx_tbc : arr nat := of_list 0 [2; 1].
Definition cx_a1 : arr nat := of_list 0 [0; 1; 0].
Definition cx_a2 : arr nat := of_list 0 [1; 1; 1].
Definition cx_mat (k : Z) : jones GQ := fun i j =>
  match i, j with 0, 0 => gi (k + 2) 1 | 0, 1 => gi 0 k | 1, 0 => gi 1 (-1) | _, _ => gi 1 k end.
Definition cx_g : gain_arr GQ := {| j_ndim := 6; j_tim := 2; j_chan := 1; j_dir := 1;
  j_at := fun t a _ _ => cx_mat (Z.of_nat (2 * t + a)) |}.
Definition cx_m : model_arr GQ := {| m_ndim := 5; m_row := 3; m_chan := 1; m_dir := 1; m_corr := 2;
  m_at := fun r _ _ i j => gi (Z.of_nat (r + i)) (Z.of_nat (j + 1)) |}.
Definition cx_flag : nat -> nat -> arr2 bool := fun r _ i j => (Nat.eqb r 2 && Nat.eqb i 1 && Nat.eqb j 0)%bool.
Definition qshow (x : GQ) : Q * Q := (this (q_re x), this (q_im x)).

Example ex_cal_hyps :
  flaws GQ /\ check_type (j_ndim cx_g) (m_ndim cx_m) VT_model = Ok FULL /\ is_min 2 cx_tbi 5%Z /\
  bins_disjoint 2 cx_tbi 5%Z cx_tbc /\ in_bin cx_tbi 5%Z cx_tbc 0 1 /\ in_bin cx_tbi 5%Z cx_tbc 1 2 /\
  flagged true 2 (cx_flag 2 0) /\ ~ flagged true 2 (cx_flag 1 0).
Proof.
  split; [exact GQ_laws|]. split; [reflexivity|]. split; [|split; [|split; [|split; [|split]]]].
  - split; [exists 0; split; [lia|reflexivity]|]. intros [|[|r]] H; cbn; lia.
  - intros [|[|t]] [|[|t']] r; unfold in_bin; cbn; lia.
  - unfold in_bin. cbn. lia.
  - unfold in_bin. cbn. lia.
  - exists 1, 0. split; [cbn; lia|reflexivity].
  - intros [i [j [_ H]]]. unfold cx_flag in H. cbn in H. discriminate.
Qed.
Example ex_gain_ok : gain_ok FULL 2 (j_at cx_g 0 0 0 0) /\ gain_ok FULL 2 (j_at cx_g 1 1 0 0).
Proof. split; intros H; apply (f_equal (fun x : GQ => this (q_re x))) in H; vm_compute in H; discriminate. Qed.

(* corruption changes the data; correction recovers the unflagged rows *)
Example ex_corrupt_correct :
  match corrupt_vis 2 cx_tbi cx_tbc cx_a1 cx_a2 cx_g cx_m with
  | Ok (tbi', v) =>
      map tbi' [0; 1] = [0; 2]%Z /\
      qshow (v_at v 0 0 0 0) <> qshow (m_at cx_m 0 0 0 0 0) /\
      match correct_vis 2 tbi' cx_tbc cx_a1 cx_a2 cx_g v cx_flag with
      | Ok (_, out) =>
          map (fun r => map (fun ij => qshow (v_at out r 0 (fst ij) (snd ij))) [(0, 0); (0, 1); (1, 0); (1, 1)]) [0; 1]
          = map (fun r => map (fun ij => qshow (m_at cx_m r 0 0 (fst ij) (snd ij))) [(0, 0); (0, 1); (1, 0); (1, 1)]) [0; 1] /\
          qshow (v_at out 2 0 0 0) = (0%Q, 0%Q)
      | Raise _ => False
      end
  | Raise _ => False
  end.
Proof. vm_compute. repeat split; try discriminate. Qed.

Example ex_chunkify :
  chunkify_rows 7 (of_list 0%Z [10; 10; 11; 12; 12; 12; 15]%Z) 2 = Ok ([3; 4], [0; 2; 3; 6], [2; 1; 3; 1]).
Proof. reflexivity. Qed.

(* two chunks of one time each *)
Definition cx_ch : cal_chunks :=
  {| cc_row := [2; 1]; cc_time := [1; 1]; cc_chan := [1]; cc_jant := [2]; cc_jdir := [1]; cc_mdir := [1] |}.
Example ex_chunks : chunk_aligned 2 cx_tbi 5%Z cx_tbc cx_ch 0 /\ chunk_aligned 2 cx_tbi 5%Z cx_tbc cx_ch 1.
Proof.
  split; constructor; cbn; try lia.
  - split; [exists 0; split; [lia|reflexivity]|]. intros [|r] H; cbn; lia.
  - intros [|t] r Ht; unfold in_bin; cbn; lia.
  - intros [|[|t]] r Ht; unfold in_bin; cbn; lia.
  - split; [exists 0; split; [lia|reflexivity]|]. intros [|r] H; cbn; lia.
  - intros [|t] r Ht; unfold in_bin; cbn; lia.
  - intros [|[|t]] r Ht; unfold in_bin; cbn; lia.
Qed.

Print Assumptions C36_corrupt_vis.
Print Assumptions C36_rebasing_idempotent.
Print Assumptions C37_correct_undoes_corrupt.
Print Assumptions C37_correct_vis.
Print Assumptions C37_one_direction_only.
Print Assumptions C38_residual_vis.
Print Assumptions C39_chunkify_rows.
Print Assumptions C39_zero_times_per_chunk.
Print Assumptions C40_chunked_corrupt.
Print Assumptions C40_chunked_residual.
Print Assumptions C40_chunked_correct.
Print Assumptions C40_several_refused.
Print Assumptions C40_chunkify_chunks_aligned.
Print Assumptions C41_check_type.
