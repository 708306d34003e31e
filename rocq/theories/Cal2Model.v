(* Model of /repo/africanus/calibration/utils/compute_and_corrupt_vis.py and
   calibration/phase_only/{phase_only,dask}.py over the real and complex numbers.  Rounding, dtypes and
   NaN or infinities (zero n, zero jhj) are not modelled; array indices are taken to be in bounds. *)
From Coq Require Import Reals.
From Verif Require Import Prelude CRing CField CplxR CplxF NumpyModel AvgModel PredictModel CalModel RimeModel.
Open Scope R_scope.
Open Scope K_scope.

(* ---------- compute_and_corrupt_vis.py ---------- *)
(* lines 16-20 (repeated in 27-31 and 42-46): model[s] * exp(1j*real_phase) / n *)
Definition source_vis (model : jones RCF) (l m u v w freq : R) : jones RCF :=
  let n := sqrt (1 - l ^ 2 - m ^ 2)%R in
  let real_phase := (minus_two_pi_over_c * freq * (u * l + v * m + w * (n - 1)))%R in
  fun i j => (model i j * cis real_phase : RCF) / (ofR n : RCF).
(* lines 11-73: the body for direction s *)
Definition cac_dir (mode : cmode) (ncorr : nat) (a1j sv a2j : jones RCF) (out : jones RCF) : jones RCF :=
  match mode with
  | DIAG_DIAG => for_ ncorr (fun c o => put true o c 0 (a1j c 0%nat * sv c 0%nat * cconj (a2j c 0%nat))) out
  | DIAG =>
      let o1 := put true out 0 0 (a1j 0%nat 0%nat * sv 0%nat 0%nat * cconj (a2j 0%nat 0%nat)) in
      let o2 := put true o1 0 1 (a1j 0%nat 0%nat * sv 0%nat 1%nat * cconj (a2j 1%nat 0%nat)) in
      let o3 := put true o2 1 0 (a1j 1%nat 0%nat * sv 1%nat 0%nat * cconj (a2j 0%nat 0%nat)) in
      put true o3 1 1 (a1j 1%nat 0%nat * sv 1%nat 1%nat * cconj (a2j 1%nat 0%nat))
  | FULL =>
      let t1 := a1j 0%nat 0%nat * sv 0%nat 0%nat in let t2 := a1j 0%nat 1%nat * sv 1%nat 0%nat in
      let t3 := a1j 0%nat 0%nat * sv 0%nat 1%nat in let t4 := a1j 0%nat 1%nat * sv 1%nat 1%nat in
      let tmp := fun i j : nat => cconj (a2j j i) in
      let o1 := put true out 0 0 (t1 * tmp 0%nat 0%nat + t2 * tmp 0%nat 0%nat + t3 * tmp 1%nat 0%nat + t4 * tmp 1%nat 0%nat) in
      let o2 := put true o1 0 1 (t1 * tmp 0%nat 1%nat + t2 * tmp 0%nat 1%nat + t3 * tmp 1%nat 1%nat + t4 * tmp 1%nat 1%nat) in
      let t1 := a1j 1%nat 0%nat * sv 0%nat 0%nat in let t2 := a1j 1%nat 1%nat * sv 1%nat 0%nat in
      let t3 := a1j 1%nat 0%nat * sv 0%nat 1%nat in let t4 := a1j 1%nat 1%nat * sv 1%nat 1%nat in
      let o3 := put true o2 1 0 (t1 * tmp 0%nat 0%nat + t2 * tmp 0%nat 0%nat + t3 * tmp 1%nat 0%nat + t4 * tmp 1%nat 0%nat) in
      put true o3 1 1 (t1 * tmp 0%nat 1%nat + t2 * tmp 0%nat 1%nat + t3 * tmp 1%nat 1%nat + t4 * tmp 1%nat 1%nat)
  end.
Definition cac_mul (mode : cmode) (ncorr n_dir : nat) (a1j model a2j : nat -> jones RCF) (uvw : arr R) (freq : R) (lm : arr2 R) (out : jones RCF) : jones RCF :=
  for_ n_dir (fun s o =>
    cac_dir mode ncorr (a1j s) (source_vis (model s) (lm s 0%nat) (lm s 1%nat) (uvw 0%nat) (uvw 1%nat) (uvw 2%nat) freq) (a2j s) o) out.
(* the model image (time, chan, dir, corr[, corr]); the extents of time and of chan are arguments below *)
Record image_arr : Type := { i_ndim : nat; i_chan : nat; i_dir : nat; i_corr : nat; i_at : nat -> nat -> nat -> jones RCF }.
(* lines 79-106; nrow is antenna1.shape[0], nfreq is freq.shape[0], n_tim is time_bin_indices.shape[0] *)
Definition compute_and_corrupt_vis (n_tim nrow nfreq : nat) (tbi : arr Z) (tbc : arr nat) (ant1 ant2 : arr nat)
    (jon : gain_arr RCF) (model : image_arr) (uvw : arr2 R) (freq : arr R) (lm : arr3 R) : res (arr Z * vis_arr RCF) :=
  do! mode <- check_type (j_ndim jon) (i_ndim model) VT_model;
  if Nat.eqb n_tim 0 then Raise ValueError
  else
    let tmin := zmin n_tim tbi in
    let tbi' := fun t => (tbi t - tmin)%Z in
    let out := bins_loop n_tim (i_chan model) tbi' tbc (fun t row nu =>
                 cac_mul mode (i_corr model) (i_dir model) (j_at jon t (ant1 row) nu) (i_at model t nu) (j_at jon t (ant2 row) nu)
                   (uvw row) (freq nu) (lm t))
                 (fun _ _ _ _ => 0) in
    Ok (tbi', {| v_ndim := i_ndim model - 1; v_row := nrow; v_chan := nfreq; v_corr := i_corr model; v_at := out |}).

(* ---------- phase_only.py ---------- *)
(* arrays with the shape of the gains, per (time, ant, chan, dir) *)
Definition garr (A : Type) : Type := nat -> nat -> nat -> nat -> arr2 A.
Definition gadd {K : cops} (x : garr K) (t a nu s : nat) (v : arr2 K) : garr K :=
  fun t' a' nu' s' => if (Nat.eqb t' t && Nat.eqb a' a && Nat.eqb nu' nu && Nat.eqb s' s)%bool
                      then fun i j => x t' a' nu' s' i j + v i j else x t' a' nu' s'.
(* lines 10-23; elementwise *)
Definition jacobian (mode : cmode) (a1j blj a2j : jones RCF) (sign : RC) : jones RCF :=
  match mode with
  | DIAG_DIAG => fun i j => (sign : RCF) * a1j i j * blj i j * cconj (a2j i j)
  | DIAG => fun _ _ => 0
  | FULL => fun _ _ => 0
  end.
Definition plus_i : RC := (0, 1)%R.
Definition minus_i : RC := (0, -1)%R.
Definition jsq (jac : jones RCF) : arr2 RR := fun i j => re (cconj (jac i j) * jac i j).
Definition jres (jac residual : jones RCF) : jones RCF := fun i j => cconj (jac i j) * residual i j.
(* the loop over time bins, rows and channels: lines 53-61, 94-101, 137-144 *)
Definition solver_loop {T} (n_tim n_chan n_dir : nat) (tbi : arr Z) (tbc : arr nat) (skip : nat -> nat -> bool)
    (body : nat -> nat -> nat -> nat -> T -> T) (st : T) : T :=
  for_ n_tim (fun t =>
    let start := Z.to_nat (tbi t) in
    for_ (tbc t) (fun k =>
      let row := (start + k)%nat in
      for_ n_chan (fun nu st => if skip row nu then st else for_ n_dir (fun s => body t row nu s) st))) st.
(* lines 75-111; n_tbi is time_bin_indices.shape[0]; the rebased indices are returned.  In FULL mode jac has
   the shape of the gains, in DIAG mode the correlations of the gains. *)
Definition compute_jhj (n_tbi : nat) (tbi : arr Z) (tbc : arr nat) (ant1 ant2 : arr nat) (jon : gain_arr RCF) (model : model_arr RCF)
    (flag : nat -> nat -> arr2 bool) : res (arr Z * garr RR) :=
  do! mode <- check_type (j_ndim jon) (m_ndim model) VT_model;
  if Nat.eqb n_tbi 0 then Raise ValueError else
  let tmin := zmin n_tbi tbi in
  let tbi' := fun t => (tbi t - tmin)%Z in
  Ok (tbi', solver_loop (j_tim jon) (j_chan jon) (j_dir jon) tbi' tbc (fun row nu => any_flag mode (m_corr model) (flag row nu))
    (fun t row nu s jhj =>
       let p := ant1 row in let q := ant2 row in
       let jac := jacobian mode (j_at jon t p nu s) (m_at model row nu s) (j_at jon t q nu s) plus_i in
       let jhj := gadd jhj t p nu s (jsq jac) in
       let jac := jacobian mode (j_at jon t p nu s) (m_at model row nu s) (j_at jon t q nu s) minus_i in
       gadd jhj t q nu s (jsq jac)) (fun _ _ _ _ _ _ => (0 : RR))).
(* lines 114-153 *)
Definition compute_jhr (n_tbi : nat) (tbi : arr Z) (tbc : arr nat) (ant1 ant2 : arr nat) (jon : gain_arr RCF) (residual : vis_arr RCF)
    (model : model_arr RCF) (flag : nat -> nat -> arr2 bool) : res (arr Z * garr RCF) :=
  do! mode <- check_type (j_ndim jon) (m_ndim model) VT_model;
  if Nat.eqb n_tbi 0 then Raise ValueError else
  let tmin := zmin n_tbi tbi in
  let tbi' := fun t => (tbi t - tmin)%Z in
  Ok (tbi', solver_loop (j_tim jon) (j_chan jon) (j_dir jon) tbi' tbc (fun row nu => any_flag mode (m_corr model) (flag row nu))
    (fun t row nu s jhr =>
       let p := ant1 row in let q := ant2 row in
       let jac := jacobian mode (j_at jon t p nu s) (m_at model row nu s) (j_at jon t q nu s) plus_i in
       let jhr := gadd jhr t p nu s (jres jac (v_at residual row nu)) in
       let jac := jacobian mode (j_at jon t p nu s) (m_at model row nu s) (j_at jon t q nu s) minus_i in
       gadd jhr t q nu s (jres jac (v_at residual row nu))) (fun _ _ _ _ _ _ => (0 : RCF))).
(* lines 26-72 *)
Definition compute_jhj_and_jhr (n_tbi : nat) (tbi : arr Z) (tbc : arr nat) (ant1 ant2 : arr nat) (jon : gain_arr RCF) (residual : vis_arr RCF)
    (model : model_arr RCF) (flag : nat -> nat -> arr2 bool) : res (arr Z * (garr RR * garr RCF)) :=
  do! mode <- check_type (j_ndim jon) (v_ndim residual) VT_vis;
  match mode with
  | DIAG_DIAG =>
      if Nat.eqb n_tbi 0 then Raise ValueError else
      let tmin := zmin n_tbi tbi in
      let tbi' := fun t => (tbi t - tmin)%Z in
      Ok (tbi', solver_loop (j_tim jon) (j_chan jon) (j_dir jon) tbi' tbc (fun row nu => any_flag mode (v_corr residual) (flag row nu))
        (fun t row nu s '(jhj, jhr) =>
           let p := ant1 row in let q := ant2 row in
           let jac := jacobian mode (j_at jon t p nu s) (m_at model row nu s) (j_at jon t q nu s) plus_i in
           let jhj := gadd jhj t p nu s (jsq jac) in
           let jhr := gadd jhr t p nu s (jres jac (v_at residual row nu)) in
           let jac := jacobian mode (j_at jon t p nu s) (m_at model row nu s) (j_at jon t q nu s) minus_i in
           let jhj := gadd jhj t q nu s (jsq jac) in
           let jhr := gadd jhr t q nu s (jres jac (v_at residual row nu)) in
           (jhj, jhr)) ((fun _ _ _ _ _ _ => (0 : RR)), (fun _ _ _ _ _ _ => (0 : RCF))))
  | _ => Raise NotImplementedError
  end.

(* np.angle *)
Definition angle (z : RC) : R :=
  let x := fst z in let y := snd z in
  if Rlt_dec 0 x then atan (y / x)
  else if Rlt_dec x 0 then if Rle_dec 0 y then atan (y / x) + PI else atan (y / x) - PI
  else if Rlt_dec 0 y then PI / 2 else if Rlt_dec y 0 then - (PI / 2) else 0%R.
(* the maximum of |x| over an array of the given shape (time, ant, chan, dir, corr), none of the extents zero *)
Fixpoint rmax (n : nat) (f : nat -> R) : R := match n with O => 0%R | S k => Rmax (rmax k f) (f k) end.
Definition max_abs (nt na nc nd ncorr : nat) (x : garr RR) : R :=
  rmax nt (fun t => rmax na (fun a => rmax nc (fun f => rmax nd (fun s => rmax ncorr (fun c => Rabs (x t a f s c 0%nat)))))).
Definition with_gains (jon : gain_arr RCF) (v : garr RCF) : gain_arr RCF :=
  {| j_ndim := j_ndim jon; j_tim := j_tim jon; j_chan := j_chan jon; j_dir := j_dir jon; j_at := v |}.
(* lines 160-163: vis *= sqrt(weight), model *= sqrt(weight)[:, :, None], in place *)
Definition whiten_vis (weight : arr3 R) (vis : vis_arr RCF) : vis_arr RCF :=
  {| v_ndim := v_ndim vis; v_row := v_row vis; v_chan := v_chan vis; v_corr := v_corr vis;
     v_at := fun r nu i j => v_at vis r nu i j * ofR (sqrt (weight r nu i)) |}.
Definition whiten_model (weight : arr3 R) (model : model_arr RCF) : model_arr RCF :=
  {| m_ndim := m_ndim model; m_row := m_row model; m_chan := m_chan model; m_dir := m_dir model; m_corr := m_corr model;
     m_at := fun r nu s i j => m_at model r nu s i j * ofR (sqrt (weight r nu i)) |}.
(* lines 176-194, with at most fuel = maxiter - k further iterations; jhr is None while unassigned *)
Definition gn_step (n_tbi : nat) (tbi : arr Z) (tbc : arr nat) (ant1 ant2 : arr nat) (vis : vis_arr RCF) (flag : nat -> nat -> arr2 bool)
    (model : model_arr RCF) (jhj : garr RR) (jon : gain_arr RCF) : res (gain_arr RCF * garr RCF * garr RR) :=
  do! (_, residual) <- residual_vis n_tbi tbi tbc ant1 ant2 jon vis flag model;
  do! (_, jhr) <- compute_jhr n_tbi tbi tbc ant1 ant2 jon residual model flag;
  let phases := fun t a f s i j => angle (j_at jon t a f s i j) in
  let phases_new := (fun t a f s i j => phases t a f s i j + /2 * (re (jhr t a f s i j) / jhj t a f s i j))%R in
  Ok (with_gains jon (fun t a f s i j => cis (phases_new t a f s i j)), jhr,
      fun t a f s i j => (phases_new t a f s i j - phases t a f s i j)%R).
Fixpoint gn_loop (fuel : nat) (n_tbi nant ncorr : nat) (tbi : arr Z) (tbc : arr nat) (ant1 ant2 : arr nat) (vis : vis_arr RCF) (flag : nat -> nat -> arr2 bool)
    (model : model_arr RCF) (tol : R) (jhj : garr RR) (eps : R) (k : nat) (jon : gain_arr RCF) (jhr : option (garr RCF)) : res (gain_arr RCF * option (garr RCF) * nat) :=
  match fuel with
  | O => Ok (jon, jhr, k)
  | S fuel =>
      if Rlt_dec tol eps then
        do! (jon', jhr', delta) <- gn_step n_tbi tbi tbc ant1 ant2 vis flag model jhj jon;
        gn_loop fuel n_tbi nant ncorr tbi tbc ant1 ant2 vis flag model tol jhj
          (max_abs (j_tim jon) nant (j_chan jon) (j_dir jon) ncorr delta) (S k) jon' (Some jhr')
      else Ok (jon, jhr, k)
  end.
(* lines 156-196.  The caller's vis, model and time_bin_indices are changed in place, whatever happens next:
   they are the first component.  tbi is rebased by the first call that uses it, and rebasing again changes nothing;
   empty gain arrays, on which max() raises, are not modelled. *)
Definition gauss_newton (n_tbi nant ncorr : nat) (tbi : arr Z) (tbc : arr nat) (ant1 ant2 : arr nat) (jon : gain_arr RCF) (vis : vis_arr RCF)
    (flag : nat -> nat -> arr2 bool) (model : model_arr RCF) (weight : arr3 R) (tol : R) (maxiter : nat)
  : (vis_arr RCF * model_arr RCF) * res (gain_arr RCF * garr RR * garr RCF * nat) :=
  let vis := whiten_vis weight vis in
  let model := whiten_model weight model in
  ((vis, model),
   do! mode <- check_type (j_ndim jon) (v_ndim vis) VT_vis;
   match mode with
   | DIAG_DIAG =>
       do! (tbi, jhj) <- compute_jhj n_tbi tbi tbc ant1 ant2 jon model flag;
       do! (jon, jhr, k) <- gn_loop maxiter n_tbi nant ncorr tbi tbc ant1 ant2 vis flag model tol jhj 1%R 0 jon None;
       match jhr with
       | Some jhr => Ok (jon, jhj, jhr, k)
       | None => Raise NameError
       end
   | _ => Raise NotImplementedError
   end).

(* ---------- phase_only/dask.py ---------- *)
(* lines 18-43: the blocks of the result (over row chunks, antennas in one chunk, channel chunks, directions
   in one chunk), and the row chunk sizes the returned dask array declares *)
Definition dask_jhj (ch : cal_chunks) (tbi : arr Z) (tbc : arr nat) (ant1 ant2 : arr nat) (jon : gain_arr RCF) (model : model_arr RCF)
    (flag : nat -> nat -> arr2 bool) : res (list nat * (nat -> nat -> res (arr Z * garr RR))) :=
  do! mode <- check_type (j_ndim jon) (m_ndim model) VT_model;
  match mode with
  | DIAG_DIAG => Ok (cc_row ch, fun rb cb =>
      compute_jhj (nth rb (cc_time ch) 0%nat) (shift (off (cc_time ch) rb) tbi) (shift (off (cc_time ch) rb) tbc)
        (shift (off (cc_row ch) rb) ant1) (shift (off (cc_row ch) rb) ant2)
        (blk_gain ch rb cb jon) (blk_model ch rb cb model) (blk_flag ch rb cb flag))
  | _ => Raise NotImplementedError
  end.
(* lines 46-72 *)
Definition dask_jhr (ch : cal_chunks) (tbi : arr Z) (tbc : arr nat) (ant1 ant2 : arr nat) (jon : gain_arr RCF) (residual : vis_arr RCF) (model : model_arr RCF)
    (flag : nat -> nat -> arr2 bool) : res (list nat * (nat -> nat -> res (arr Z * garr RCF))) :=
  do! mode <- check_type (j_ndim jon) (v_ndim residual) VT_vis;
  match mode with
  | DIAG_DIAG => Ok (cc_row ch, fun rb cb =>
      compute_jhr (nth rb (cc_time ch) 0%nat) (shift (off (cc_time ch) rb) tbi) (shift (off (cc_time ch) rb) tbc)
        (shift (off (cc_row ch) rb) ant1) (shift (off (cc_row ch) rb) ant2)
        (blk_gain ch rb cb jon) (blk_v ch rb cb residual) (blk_model ch rb cb model) (blk_flag ch rb cb flag))
  | _ => Raise NotImplementedError
  end.

(* ---------- utils/dask.py:74-132 compute_and_corrupt_vis ---------- *)
(* lm_dir, lm_last and uvw_last are the chunks of those axes; the frequencies are chunked like the gains *)
Definition blk_image (ch : cal_chunks) (rb cb : nat) (m : image_arr) : image_arr :=
  {| i_ndim := i_ndim m; i_chan := nth cb (cc_chan ch) 0%nat; i_dir := hd 0%nat (cc_mdir ch); i_corr := i_corr m;
     i_at := fun t f s => i_at m (off (cc_time ch) rb + t) (off (cc_chan ch) cb + f) s |}.
Definition dask_compute_and_corrupt (ch : cal_chunks) (nant : nat) (uvw_last lm_dir lm_last : list nat) (tbi : arr Z) (tbc : arr nat) (ant1 ant2 : arr nat)
    (jon : gain_arr RCF) (model : image_arr) (uvw : arr2 R) (freq : arr R) (lm : arr3 R) : res (nat -> nat -> res (arr Z * vis_arr RCF)) :=
  if chunked_axis (cc_jant ch) nant then Raise ValueError
  else if chunked_axis (cc_jdir ch) (j_dir jon) then Raise ValueError
  else if chunked_axis (cc_mdir ch) (i_dir model) then Raise ValueError
  else if chunked_axis uvw_last 3 then Raise ValueError
  else if chunked_axis lm_dir (i_dir model) then Raise ValueError
  else if chunked_axis lm_last 2 then Raise ValueError
  else
    do! _ <- check_type (j_ndim jon) (i_ndim model) VT_model;
    Ok (fun rb cb =>
      compute_and_corrupt_vis (nth rb (cc_time ch) 0%nat) (nth rb (cc_row ch) 0%nat) (nth cb (cc_chan ch) 0%nat)
        (shift (off (cc_time ch) rb) tbi) (shift (off (cc_time ch) rb) tbc)
        (shift (off (cc_row ch) rb) ant1) (shift (off (cc_row ch) rb) ant2)
        (blk_gain ch rb cb jon) (blk_image ch rb cb model)
        (shift (off (cc_row ch) rb) uvw) (shift (off (cc_chan ch) cb) freq) (shift (off (cc_time ch) rb) lm)).
