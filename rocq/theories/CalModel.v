(* Model of /repo/africanus/calibration/utils/{utils,corrupt_vis,correct_vis,residual_vis}.py *)
From Verif Require Import Prelude CRing CField PredictModel NumpyModel AvgModel.
Open Scope nat_scope.

(* utils.py:6-8 *)
Inductive cmode : Type := DIAG_DIAG | DIAG | FULL.
(* the vis_type string: 'vis', 'model' or anything else *)
Inductive vis_type : Type := VT_vis | VT_model | VT_other.

(* utils.py:11-39 check_type, on the numbers of dimensions *)
Definition check_type (jones_ndim vis_ndim : nat) (vt : vis_type) : res cmode :=
  do! (d0, d1) <- match vt with
                  | VT_vis => Ok (3, 4)
                  | VT_model => Ok (4, 5)
                  | VT_other => Raise ValueError
                  end;
  if Nat.eqb vis_ndim d0 then
    if negb (Nat.eqb jones_ndim 5) then Raise RuntimeError else Ok DIAG_DIAG
  else if Nat.eqb vis_ndim d1 then
    if Nat.eqb jones_ndim 5 then Ok DIAG
    else if Nat.eqb jones_ndim 6 then Ok FULL
    else Raise RuntimeError
  else Raise RuntimeError.

(* np.cumsum *)
Fixpoint cumsum_from (acc : nat) (l : list nat) : list nat :=
  match l with [] => [] | x :: r => (acc + x) :: cumsum_from (acc + x) r end.
(* range(0, n, step) for step > 0 *)
Definition range_step (n step : nat) : list nat :=
  map (fun k => k * step) (seq 0 ((n + step - 1) / step)).
(* utils.py:42-51 chunkify_rows.  Times are integers (any totally ordered values behave the
   same); np.unique(return_counts=True) is the function modelled in AvgModel; the casts to
   int32 are not modelled.  range() with step 0 raises ValueError. *)
Definition chunkify_rows (nrow : nat) (time : arr Z) (utimes_per_chunk : nat)
  : res (list nat * list nat * list nat) :=
  let '(utimes, _, _, counts) := unique_internal Z.ltb zneqb nrow time in
  let n_time := length utimes in
  if Nat.eqb utimes_per_chunk 0 then Raise ValueError
  else
    let row_chunks := map (fun i => list_sum (firstn utimes_per_chunk (skipn i counts)))
                          (range_step n_time utimes_per_chunk) in
    (* zeros(n_time) with [1::] assigned cumsum[0:-1] *)
    let indices := match n_time with O => [] | S _ => 0 :: removelast (cumsum_from 0 counts) end in
    Ok (row_chunks, indices, counts).

Section Cal.
  Context {F : fops}.
  Open Scope K_scope.

  (* gains (time, ant, chan, dir, corr[, corr]) and model (row, chan, dir, corr[, corr]) *)
  Record gain_arr : Type := { j_ndim : nat; j_tim : nat; j_chan : nat; j_dir : nat;
                              j_at : nat -> nat -> nat -> nat -> jones F }.
  Record model_arr : Type := { m_ndim : nat; m_row : nat; m_chan : nat; m_dir : nat; m_corr : nat;
                               m_at : nat -> nat -> nat -> jones F }.

  (* corrupt_vis.py:10-56 jones_mul_factory: the body for direction s *)
  Definition corrupt_dir (mode : cmode) (ncorr : nat) (a1j model a2j : jones F) (out : jones F) : jones F :=
    match mode with
    | DIAG_DIAG => for_ ncorr (fun c o => put true o c 0 (a1j c 0%nat * model c 0%nat * cconj (a2j c 0%nat))) out
    | DIAG =>
        let o1 := put true out 0 0 (a1j 0%nat 0%nat * model 0%nat 0%nat * cconj (a2j 0%nat 0%nat)) in
        let o2 := put true o1 0 1 (a1j 0%nat 0%nat * model 0%nat 1%nat * cconj (a2j 1%nat 0%nat)) in
        let o3 := put true o2 1 0 (a1j 1%nat 0%nat * model 1%nat 0%nat * cconj (a2j 0%nat 0%nat)) in
        put true o3 1 1 (a1j 1%nat 0%nat * model 1%nat 1%nat * cconj (a2j 1%nat 0%nat))
    | FULL =>
        let t1 := a1j 0%nat 0%nat * model 0%nat 0%nat in let t2 := a1j 0%nat 1%nat * model 1%nat 0%nat in
        let t3 := a1j 0%nat 0%nat * model 0%nat 1%nat in let t4 := a1j 0%nat 1%nat * model 1%nat 1%nat in
        let tmp := fun i j : nat => cconj (a2j j i) in
        let o1 := put true out 0 0 (t1 * tmp 0%nat 0%nat + t2 * tmp 0%nat 0%nat + t3 * tmp 1%nat 0%nat + t4 * tmp 1%nat 0%nat) in
        let o2 := put true o1 0 1 (t1 * tmp 0%nat 1%nat + t2 * tmp 0%nat 1%nat + t3 * tmp 1%nat 1%nat + t4 * tmp 1%nat 1%nat) in
        let t1 := a1j 1%nat 0%nat * model 0%nat 0%nat in let t2 := a1j 1%nat 1%nat * model 1%nat 0%nat in
        let t3 := a1j 1%nat 0%nat * model 0%nat 1%nat in let t4 := a1j 1%nat 1%nat * model 1%nat 1%nat in
        let o3 := put true o2 1 0 (t1 * tmp 0%nat 0%nat + t2 * tmp 0%nat 0%nat + t3 * tmp 1%nat 0%nat + t4 * tmp 1%nat 0%nat) in
        put true o3 1 1 (t1 * tmp 0%nat 1%nat + t2 * tmp 0%nat 1%nat + t3 * tmp 1%nat 1%nat + t4 * tmp 1%nat 1%nat)
    end.
  Definition corrupt_mul (mode : cmode) (ncorr n_dir : nat) (a1j model a2j : nat -> jones F) (out : jones F) : jones F :=
    for_ n_dir (fun s o => corrupt_dir mode ncorr (a1j s) (model s) (a2j s) o) out.

  (* the loop over time bins, their rows and the channels that the three functions share:
     corrupt_vis.py:76-84, correct_vis.py:89-99, residual_vis.py:79-90.
     Indices are taken to be in bounds. *)
  Definition bins_loop (n_tim n_chan : nat) (tbi : arr Z) (tbc : arr nat)
             (body : nat -> nat -> nat -> jones F -> jones F) (out : @outbuf F) : @outbuf F :=
    for_ n_tim (fun t =>
      let start := Z.to_nat (tbi t) in
      for_ (tbc t) (fun k =>
        let row := (start + k)%nat in
        for_ n_chan (fun nu o => at_rf o row nu (body t row nu)))) out.

  (* corrupt_vis.py:59-87.  time_bin_indices (extent n_tim) is rebased in place; the new
     array is returned next to the result. *)
  Definition corrupt_vis (n_tim : nat) (tbi : arr Z) (tbc : arr nat) (ant1 ant2 : arr nat)
             (jon : gain_arr) (model : model_arr) : res (arr Z * vis_arr F) :=
    do! mode <- check_type (j_ndim jon) (m_ndim model) VT_model;
    if Nat.eqb n_tim 0 then Raise ValueError                       (* min of an empty array *)
    else
      let tmin := zmin n_tim tbi in
      let tbi' := fun t => (tbi t - tmin)%Z in
      let out := bins_loop n_tim (m_chan model) tbi' tbc (fun t row nu =>
                   corrupt_mul mode (m_corr model) (m_dir model)
                     (j_at jon t (ant1 row) nu) (m_at model row nu) (j_at jon t (ant2 row) nu))
                   (fun _ _ _ _ => 0) in
      Ok (tbi', {| v_ndim := m_ndim model - 1; v_row := m_row model; v_chan := m_chan model;
                   v_corr := m_corr model; v_at := out |}).

  (* correct_vis.py:10-66 jones_inverse_mul_factory *)
  Definition correct_mul (mode : cmode) (ncorr : nat) (a1j blj a2j : jones F) (out : jones F) : jones F :=
    match mode with
    | DIAG_DIAG => for_ ncorr (fun c o => put false o c 0 (blj c 0%nat / (a1j c 0%nat * cconj (a2j c 0%nat)))) out
    | DIAG =>
        let o1 := put false out 0 0 (blj 0%nat 0%nat / (a1j 0%nat 0%nat * cconj (a2j 0%nat 0%nat))) in
        let o2 := put false o1 0 1 (blj 0%nat 1%nat / (a1j 0%nat 0%nat * cconj (a2j 1%nat 0%nat))) in
        let o3 := put false o2 1 0 (blj 1%nat 0%nat / (a1j 1%nat 0%nat * cconj (a2j 0%nat 0%nat))) in
        put false o3 1 1 (blj 1%nat 1%nat / (a1j 1%nat 0%nat * cconj (a2j 1%nat 0%nat)))
    | FULL =>
        let deta1j := a1j 0%nat 0%nat * a1j 1%nat 1%nat - a1j 0%nat 1%nat * a1j 1%nat 0%nat in
        let a00 := a1j 1%nat 1%nat / deta1j in let a01 := (- a1j 0%nat 1%nat) / deta1j in
        let a10 := (- a1j 1%nat 0%nat) / deta1j in let a11 := a1j 0%nat 0%nat / deta1j in
        let a2c := fun i j : nat => cconj (a2j i j) in
        let deta2j := a2c 0%nat 0%nat * a2c 1%nat 1%nat - a2c 0%nat 1%nat * a2c 1%nat 0%nat in
        let b00 := a2c 1%nat 1%nat / deta2j in let b01 := (- a2c 1%nat 0%nat) / deta2j in
        let b10 := (- a2c 0%nat 1%nat) / deta2j in let b11 := a2c 0%nat 0%nat / deta2j in
        let t1 := a00 * blj 0%nat 0%nat in let t2 := a01 * blj 1%nat 0%nat in
        let t3 := a00 * blj 0%nat 1%nat in let t4 := a01 * blj 1%nat 1%nat in
        let o1 := put false out 0 0 (t1 * b00 + t2 * b00 + t3 * b10 + t4 * b10) in
        let o2 := put false o1 0 1 (t1 * b01 + t2 * b01 + t3 * b11 + t4 * b11) in
        let t1 := a10 * blj 0%nat 0%nat in let t2 := a11 * blj 1%nat 0%nat in
        let t3 := a10 * blj 0%nat 1%nat in let t4 := a11 * blj 1%nat 1%nat in
        let o3 := put false o2 1 0 (t1 * b00 + t2 * b00 + t3 * b10 + t4 * b10) in
        put false o3 1 1 (t1 * b01 + t2 * b01 + t3 * b11 + t4 * b11)
    end.

  (* np.any(flag[row, nu]) over the correlations *)
  Definition any_flag (mode : cmode) (ncorr : nat) (fl : arr2 bool) : bool :=
    match mode with
    | DIAG_DIAG => existsb (fun c => fl c 0%nat) (seq 0 ncorr)
    | _ => existsb (fun i => existsb (fun j => fl i j) (seq 0 2)) (seq 0 2)
    end.

  (* correct_vis.py:69-102: the number of times and of channels are those of jones *)
  Definition correct_vis (n_tbi : nat) (tbi : arr Z) (tbc : arr nat) (ant1 ant2 : arr nat)
             (jon : gain_arr) (vis : vis_arr F) (flag : nat -> nat -> arr2 bool) : res (arr Z * vis_arr F) :=
    do! mode <- check_type (j_ndim jon) (v_ndim vis) VT_vis;
    if Nat.eqb n_tbi 0 then Raise ValueError
    else
      let tmin := zmin n_tbi tbi in
      let tbi' := fun t => (tbi t - tmin)%Z in
      if Nat.ltb 1 (j_dir jon) then Raise ValueError
      else
        let out := bins_loop (j_tim jon) (j_chan jon) tbi' tbc (fun t row nu o =>
                     if negb (any_flag mode (v_corr vis) (flag row nu))
                     then correct_mul mode (v_corr vis) (j_at jon t (ant1 row) nu 0%nat) (v_at vis row nu)
                                      (j_at jon t (ant2 row) nu 0%nat) o
                     else o)
                     (fun _ _ _ _ => 0) in
        Ok (tbi', {| v_ndim := v_ndim vis; v_row := v_row vis; v_chan := v_chan vis;
                     v_corr := v_corr vis; v_at := out |}).

  (* residual_vis.py:11-59 subtract_model_factory: the body for direction s *)
  Definition psub (out : jones F) (i j : nat) (v : F) : jones F := upd2 out i j (out i j - v).
  Definition subtract_dir (mode : cmode) (ncorr : nat) (a1j model a2j : jones F) (out : jones F) : jones F :=
    match mode with
    | DIAG_DIAG => for_ ncorr (fun c o => psub o c 0 (a1j c 0%nat * model c 0%nat * cconj (a2j c 0%nat))) out
    | DIAG =>
        let o1 := psub out 0 0 (a1j 0%nat 0%nat * model 0%nat 0%nat * cconj (a2j 0%nat 0%nat)) in
        let o2 := psub o1 0 1 (a1j 0%nat 0%nat * model 0%nat 1%nat * cconj (a2j 1%nat 0%nat)) in
        let o3 := psub o2 1 0 (a1j 1%nat 0%nat * model 1%nat 0%nat * cconj (a2j 0%nat 0%nat)) in
        psub o3 1 1 (a1j 1%nat 0%nat * model 1%nat 1%nat * cconj (a2j 1%nat 0%nat))
    | FULL =>
        let t1 := a1j 0%nat 0%nat * model 0%nat 0%nat in let t2 := a1j 0%nat 1%nat * model 1%nat 0%nat in
        let t3 := a1j 0%nat 0%nat * model 0%nat 1%nat in let t4 := a1j 0%nat 1%nat * model 1%nat 1%nat in
        let tmp := fun i j : nat => cconj (a2j j i) in
        let o1 := psub out 0 0 (t1 * tmp 0%nat 0%nat + t2 * tmp 0%nat 0%nat + t3 * tmp 1%nat 0%nat + t4 * tmp 1%nat 0%nat) in
        let o2 := psub o1 0 1 (t1 * tmp 0%nat 1%nat + t2 * tmp 0%nat 1%nat + t3 * tmp 1%nat 1%nat + t4 * tmp 1%nat 1%nat) in
        let t1 := a1j 1%nat 0%nat * model 0%nat 0%nat in let t2 := a1j 1%nat 1%nat * model 1%nat 0%nat in
        let t3 := a1j 1%nat 0%nat * model 0%nat 1%nat in let t4 := a1j 1%nat 1%nat * model 1%nat 1%nat in
        let o3 := psub o2 1 0 (t1 * tmp 0%nat 0%nat + t2 * tmp 0%nat 0%nat + t3 * tmp 1%nat 0%nat + t4 * tmp 1%nat 0%nat) in
        psub o3 1 1 (t1 * tmp 0%nat 1%nat + t2 * tmp 0%nat 1%nat + t3 * tmp 1%nat 1%nat + t4 * tmp 1%nat 1%nat)
    end.
  Definition subtract_model (mode : cmode) (ncorr n_dir : nat) (a1j : nat -> jones F) (blj : jones F)
             (a2j model : nat -> jones F) (out : jones F) : jones F :=
    for_ n_dir (fun s o => subtract_dir mode ncorr (a1j s) (model s) (a2j s) o) blj.   (* out[...] = blj *)

  (* residual_vis.py:62-93 *)
  Definition residual_vis (n_tim : nat) (tbi : arr Z) (tbc : arr nat) (ant1 ant2 : arr nat)
             (jon : gain_arr) (vis : vis_arr F) (flag : nat -> nat -> arr2 bool) (model : model_arr)
    : res (arr Z * vis_arr F) :=
    do! mode <- check_type (j_ndim jon) (v_ndim vis) VT_vis;
    if Nat.eqb n_tim 0 then Raise ValueError
    else
      let tmin := zmin n_tim tbi in
      let tbi' := fun t => (tbi t - tmin)%Z in
      let out := bins_loop n_tim (v_chan vis) tbi' tbc (fun t row nu o =>
                   if negb (any_flag mode (v_corr vis) (flag row nu))
                   then subtract_model mode (v_corr vis) (m_dir model) (j_at jon t (ant1 row) nu)
                          (v_at vis row nu) (j_at jon t (ant2 row) nu) (m_at model row nu) o
                   else o)
                   (fun _ _ _ _ => 0) in
      Ok (tbi', {| v_ndim := v_ndim vis; v_row := v_row vis; v_chan := v_chan vis;
                   v_corr := v_corr vis; v_at := out |}).

  (* ---- utils/dask.py: the blockwise wrappers ---- *)
  (* chunk sizes.  The correlations are in one chunk; the "row" index of the wrappers runs over
     the row chunks and over as many time chunks. *)
  Record cal_chunks : Type := { cc_row : list nat; cc_time : list nat; cc_chan : list nat;
                                cc_jant : list nat; cc_jdir : list nat; cc_mdir : list nat }.
  Definition off (l : list nat) (i : nat) : nat := list_sum (firstn i l).
  (* x.chunks[axis][0] != x.shape[axis] *)
  Definition chunked_axis (l : list nat) (n : nat) : bool := negb (Nat.eqb (hd 0%nat l) n).
  (* blocks of the arrays.  jones[0][0] and model[0] take the first antenna and direction block. *)
  Definition shift {A} (o : nat) (x : arr A) : arr A := fun i => x (o + i)%nat.
  Definition blk_gain (ch : cal_chunks) (rb cb : nat) (g : gain_arr) : gain_arr :=
    {| j_ndim := j_ndim g; j_tim := nth rb (cc_time ch) 0%nat; j_chan := nth cb (cc_chan ch) 0%nat; j_dir := hd 0%nat (cc_jdir ch);
       j_at := fun t a f s => j_at g (off (cc_time ch) rb + t) a (off (cc_chan ch) cb + f) s |}.
  Definition blk_model (ch : cal_chunks) (rb cb : nat) (m : model_arr) : model_arr :=
    {| m_ndim := m_ndim m; m_row := nth rb (cc_row ch) 0%nat; m_chan := nth cb (cc_chan ch) 0%nat; m_dir := hd 0%nat (cc_mdir ch);
       m_corr := m_corr m; m_at := fun r f s => m_at m (off (cc_row ch) rb + r) (off (cc_chan ch) cb + f) s |}.
  Definition blk_v (ch : cal_chunks) (rb cb : nat) (v : vis_arr F) : vis_arr F :=
    {| v_ndim := v_ndim v; v_row := nth rb (cc_row ch) 0%nat; v_chan := nth cb (cc_chan ch) 0%nat; v_corr := v_corr v;
       v_at := fun r f => v_at v (off (cc_row ch) rb + r) (off (cc_chan ch) cb + f) |}.
  Definition blk_flag (ch : cal_chunks) (rb cb : nat) (fl : nat -> nat -> arr2 bool) : nat -> nat -> arr2 bool :=
    fun r f => fl (off (cc_row ch) rb + r)%nat (off (cc_chan ch) cb + f)%nat.

  (* utils/dask.py:25-71 corrupt_vis: the blocks of the result.  nant is jones.shape[1]. *)
  Definition dask_corrupt_vis (ch : cal_chunks) (nant : nat) (tbi : arr Z) (tbc : arr nat) (ant1 ant2 : arr nat)
             (jon : gain_arr) (model : model_arr) : res (nat -> nat -> res (arr Z * vis_arr F)) :=
    do! _ <- check_type (j_ndim jon) (m_ndim model) VT_model;
    if chunked_axis (cc_jant ch) nant then Raise ValueError
    else if chunked_axis (cc_jdir ch) (j_dir jon) then Raise ValueError
    else if chunked_axis (cc_mdir ch) (m_dir model) then Raise ValueError
    else Ok (fun rb cb =>
      corrupt_vis (nth rb (cc_time ch) 0%nat) (shift (off (cc_time ch) rb) tbi) (shift (off (cc_time ch) rb) tbc)
        (shift (off (cc_row ch) rb) ant1) (shift (off (cc_row ch) rb) ant2)
        (blk_gain ch rb cb jon) (blk_model ch rb cb model)).

  (* utils/dask.py:135-177 correct_vis (j_ndim below 4 raises IndexError at jones.chunks[3]; such
     gains are not modelled here) *)
  Definition dask_correct_vis (ch : cal_chunks) (nant : nat) (tbi : arr Z) (tbc : arr nat) (ant1 ant2 : arr nat)
             (jon : gain_arr) (vis : vis_arr F) (flag : nat -> nat -> arr2 bool)
    : res (nat -> nat -> res (arr Z * vis_arr F)) :=
    if chunked_axis (cc_jant ch) nant then Raise ValueError
    else if chunked_axis (cc_jdir ch) (j_dir jon) then Raise ValueError
    else
      do! _ <- check_type (j_ndim jon) (v_ndim vis) VT_vis;
      Ok (fun rb cb =>
        correct_vis (nth rb (cc_time ch) 0%nat) (shift (off (cc_time ch) rb) tbi) (shift (off (cc_time ch) rb) tbc)
          (shift (off (cc_row ch) rb) ant1) (shift (off (cc_row ch) rb) ant2)
          (blk_gain ch rb cb jon) (blk_v ch rb cb vis) (blk_flag ch rb cb flag)).

  (* utils/dask.py:180-229 residual_vis *)
  Definition dask_residual_vis (ch : cal_chunks) (nant : nat) (tbi : arr Z) (tbc : arr nat) (ant1 ant2 : arr nat)
             (jon : gain_arr) (vis : vis_arr F) (flag : nat -> nat -> arr2 bool) (model : model_arr)
    : res (nat -> nat -> res (arr Z * vis_arr F)) :=
    if chunked_axis (cc_jant ch) nant then Raise ValueError
    else if chunked_axis (cc_jdir ch) (j_dir jon) then Raise ValueError
    else if chunked_axis (cc_mdir ch) (m_dir model) then Raise ValueError
    else
      do! _ <- check_type (j_ndim jon) (v_ndim vis) VT_vis;
      Ok (fun rb cb =>
        residual_vis (nth rb (cc_time ch) 0%nat) (shift (off (cc_time ch) rb) tbi) (shift (off (cc_time ch) rb) tbc)
          (shift (off (cc_row ch) rb) ant1) (shift (off (cc_row ch) rb) ant2)
          (blk_gain ch rb cb jon) (blk_v ch rb cb vis) (blk_flag ch rb cb flag) (blk_model ch rb cb model)).
End Cal.
Arguments gain_arr : clear implicits.
Arguments model_arr : clear implicits.
