(* Model of /repo/africanus/rime/cuda/predict.py and of the kernel in /repo/africanus/rime/cuda/predict.cu.j2.
   A warp is 32 threads of one row: the kernel's blocks are 32 threads wide, so lane = threadIdx.x.  The threads of a warp meet at each
   shuffle; warps do not communicate, so a schedule is an order of the warps.  Arithmetic is over the complex numbers as pairs
   of reals, written by component as the kernel does; rounding, integer overflow and out of bounds accesses are not modelled.
   The mask handed to the shuffles is not modelled (see the note of C92). *)
From Coq Require Import Reals Lra.
From Verif Require Import Prelude CRing CplxR PredictModel UtilModel DaskRimeModel.
Open Scope nat_scope.

Definition regs : Type := nat -> RC.      (* a register of every lane *)
(* __shfl_sync: the value of lane idx; that of a lane which is not active is undefined *)
Definition shfl (act : nat -> bool) (und : regs) (x : regs) (idx : nat -> nat) : regs :=
  fun lane => if act (idx lane) then x (idx lane) else und lane.
Definition warp_size : nat := 32.
Definition is_odd (lane : nat) : nat := lane mod 2.
Definition base_idx (lane : nat) : nat := 4 * (lane / 4).
(* predict.cu.j2:104-105: the component formula of the product *)
Definition mulv (j k : RC) : RC := (fst j * fst k - snd j * snd k, fst j * snd k + snd j * fst k)%R.
(* predict.cu.j2:148-149: with the conjugate of k *)
Definition mulcv (j k : RC) : RC := (fst j * fst k + snd j * snd k, - fst j * snd k + snd j * fst k)%R.
Definition addv (a b : RC) : RC := (fst a + fst b, snd a + snd b)%R.

(* predict.cu.j2:83-122 *)
Definition multiply4 (act : nat -> bool) (und J K : regs) : regs :=
  let k1 := shfl act und K (fun lane => base_idx lane + 1 + is_odd lane) in
  let s1 : regs := fun lane => mulv (J lane) (k1 lane) in
  let s2 := shfl act und s1 (fun lane => lane + 1 - 2 * is_odd lane) in
  let k2 := shfl act und K (fun lane => base_idx lane + 3 * is_odd lane) in
  fun lane => addv (s2 lane) (mulv (J lane) (k2 lane)).
(* predict.cu.j2:127-168 *)
Definition multiply_ct4 (act : nat -> bool) (und J K : regs) : regs :=
  let k1 := shfl act und K (fun lane => base_idx lane + 1 + (if Nat.eqb (is_odd lane) 0 then 1 else 0)) in
  let s1 : regs := fun lane => mulcv (J lane) (k1 lane) in
  let s2 := shfl act und s1 (fun lane => lane + 1 - 2 * is_odd lane) in
  let k2 := shfl act und K (fun lane => base_idx lane + 3 * is_odd lane) in
  fun lane => addv (s2 lane) (mulcv (J lane) (k2 lane)).
(* predict.cu.j2:182-192, 221-231: J.x, then J.y, updated in turn *)
Definition multiply1 (J K : regs) : regs := fun lane =>
  let j1 := J lane in let k := K lane in
  let jx := (fst j1 * fst k)%R in
  let jy := (fst j1 * snd k)%R in
  let jx := (jx - snd j1 * snd k)%R in
  let jy := (jy + snd j1 * fst k)%R in (jx, jy).
(* predict.cu.j2:194-205, 233-244 *)
Definition multiply_ct1 (J K : regs) : regs := fun lane =>
  let j1 := J lane in let k := K lane in
  let jx := (fst j1 * fst k)%R in
  let jy := (snd j1 * fst k)%R in
  let jx := (jx + snd j1 * snd k)%R in
  let jy := (jy - fst j1 * snd k)%R in (jx, jy).
(* the template argument CORRS selects the class *)
Definition jm_multiply (corrs : nat) (act : nat -> bool) (und : regs) : regs -> regs -> regs :=
  if Nat.eqb corrs 4 then multiply4 act und else multiply1.
Definition jm_multiply_ct (corrs : nat) (act : nat -> bool) (und : regs) : regs -> regs -> regs :=
  if Nat.eqb corrs 4 then multiply_ct4 act und else multiply_ct1.

(* an array in the memory of the device: shape and elements at the flattened position; C order *)
Definition flat (shape : list nat) (at_ : list nat -> RC) : nat -> RC := fun i => at_ (unravel shape i).
(* correlation c of a matrix after the wrapper's reshape (predict.py:148-166): (nc, nc) matrices become nc*nc elements *)
Definition corr_at (full : bool) (nc : nat) (j : jones RC) (c : nat) : RC :=
  if full then j (c / nc) (c mod nc) else j c 0.
Definition flat_corrs (full : bool) (nc : nat) : nat := if full then nc * nc else nc.

(* the kernel's arguments after rendering the template (predict.cu.j2:36-60, 258-262) *)
Record kargs : Type := {
  k_nrow : nat; k_nchan : nat; k_corrs : nat; k_nsrc : nat; k_ntime : nat; k_na : nat;
  k_time : nat -> nat; k_ant1 : nat -> nat; k_ant2 : nat -> nat;
  k_dde1 : option (nat -> RC); k_coh : option (nat -> RC); k_dde2 : option (nat -> RC);
  k_die1 : option (nat -> RC); k_bvis : option (nat -> RC); k_die2 : option (nat -> RC)
}.
(* predict.cu.j2:256-352 for the warp of row [row] whose first thread has corrchan = c0 *)
Definition kernel_warp (k : kargs) (und : regs) (row start : nat) : regs :=
  let ncorrchan := k_nchan k * k_corrs k in
  let corrchan := fun lane => start + lane in
  let act := fun lane => Nat.ltb (corrchan lane) ncorrchan in
  let time := k_time k row in
  let ant1 := k_ant1 k row in
  let ant2 := k_ant2 k row in
  let corr : regs := match k_bvis k with
                     | Some b => fun lane => b (row * ncorrchan + corrchan lane)
                     | None => fun _ => (0, 0)%R
                     end in
  let dde_idx := fun src ant lane => ((src * k_ntime k + time) * k_na k + ant) * ncorrchan + corrchan lane in
  let coh_idx := fun src lane => (src * k_nrow k + row) * ncorrchan + corrchan lane in
  let corr : regs :=
    match k_dde1 k, k_coh k, k_dde2 k with
    | Some e1, Some x, Some e2 =>
        for_ (k_nsrc k) (fun src corr =>
          let coherency : regs := fun lane => e1 (dde_idx src ant1 lane) in
          let coherency := jm_multiply (k_corrs k) act und coherency (fun lane => x (coh_idx src lane)) in
          let coherency := jm_multiply_ct (k_corrs k) act und coherency (fun lane => e2 (dde_idx src ant2 lane)) in
          fun lane => addv (corr lane) (coherency lane)) corr
    | Some e1, None, Some e2 =>
        for_ (k_nsrc k) (fun src corr =>
          let coherency : regs := fun lane => e1 (dde_idx src ant1 lane) in
          let coherency := jm_multiply_ct (k_corrs k) act und coherency (fun lane => e2 (dde_idx src ant2 lane)) in
          fun lane => addv (corr lane) (coherency lane)) corr
    | None, Some x, None =>
        for_ (k_nsrc k) (fun src corr =>
          let coherency : regs := fun lane => x (coh_idx src lane) in
          fun lane => addv (corr lane) (coherency lane)) corr
    | _, _, _ => corr
    end in
  match k_die1 k, k_die2 k with
  | Some g1, Some g2 =>
      let die_idx := fun ant lane => (time * k_na k + ant) * ncorrchan + corrchan lane in
      let corr := jm_multiply_ct (k_corrs k) act und corr (fun lane => g2 (die_idx ant2 lane)) in
      jm_multiply (k_corrs k) act und (fun lane => g1 (die_idx ant1 lane)) corr
  | _, _ => corr
  end.
(* one warp: block (bx, by), row ty of the block; threads outside the grid return (predict.cu.j2:256-267, 351) *)
Definition run_warp (k : kargs) (und : regs) (blockdimy : nat) (w : nat * nat * nat) (out : nat -> RC) : nat -> RC :=
  let '(bx, by_, ty) := w in
  let row := by_ * blockdimy + ty in
  let start := bx * warp_size in
  let ncorrchan := k_nchan k * k_corrs k in
  if Nat.leb (k_nrow k) row then out else
  let v := kernel_warp k und row start in
  for_ warp_size (fun lane out =>
    if Nat.leb ncorrchan (start + lane) then out else upd out (row * ncorrchan + (start + lane)) (v lane)) out.
(* the warps of a launch *)
Definition launched (gx gy blockdimy : nat) (w : nat * nat * nat) : Prop :=
  let '(bx, by_, ty) := w in bx < gx /\ by_ < gy /\ ty < blockdimy.

Definition compile_exn : exn := UserExn 7.    (* cupy's CompileException *)
Definition zmin_index (n : nat) (t : arr Z) : nat -> nat := fun r => Z.to_nat (t r - zmin n t).
(* extents of the antenna arrays that PredictModel leaves out: times and antennas of the direction dependent and of the
   direction independent terms *)
Record extents : Type := { x_dde : nat * nat; x_die : nat * nat }.

(* predict.cu.j2:36-60: which extents the rendered kernel reads; without any of these arrays nchan is empty text and the
   kernel does not compile *)
Definition kernel_nchan (a : predict_in RC) : res nat :=
  match p_dde1 a, p_dde2 a with
  | Some e, Some _ => Ok (d_chan e)
  | _, _ => match p_die1 a, p_die2 a with
            | Some g, Some _ => Ok (g_chan g)
            | _, _ => match p_coh a with Some x => Ok (h_chan x) | None => Raise compile_exn end
            end
  end.
Definition kernel_time_na (a : predict_in RC) (x : extents) : nat * nat :=
  match p_dde1 a, p_dde2 a with Some _, Some _ => x_dde x | _, _ => x_die x end.
Definition kernel_nsrc (a : predict_in RC) : nat :=
  match p_dde1 a, p_dde2 a with Some e, Some _ => d_src e | _, _ => match p_coh a with Some x => h_src x | None => 0 end end.
(* JonesMultiplier has members for 1, 2 and 4 correlations only, and is used if there are antenna terms *)
Definition jm_ok (corrs : nat) (a : predict_in RC) : bool :=
  Nat.eqb corrs 1 || Nat.eqb corrs 2 || Nat.eqb corrs 4 || negb (have (p_dde1 a) || have (p_die1 a)).
(* predict.py:106-133: number of correlation dimensions, of the array that sets the output shape *)
Definition corr_dims (a : predict_in RC) : res nat :=
  match p_dde1 a, p_dde2 a with
  | Some e, Some _ => Ok (d_ndim e - 4)
  | _, _ =>
      match p_coh a with
      | Some x => Ok (h_ndim x - 3)
      | None =>
          match p_die1 a, p_die2 a with
          | Some g, Some _ => Ok (g_ndim g - 3)
          | _, _ => match p_bvis a with Some b => Ok (v_ndim b - 2) | None => Raise ValueError end
          end
      end
  end.
Definition pair_of {A B} (x : option A) (y : option B) : bool := have x && have y.
(* predict.py:93-209.  int32 says which of time_index, antenna1 and antenna2 have that type; order is the schedule of the
   warps; und and garbage are undefined values.  Both correlation extents of a matrix are d_corr.  Reshapes whose sizes do not
   agree are not modelled: only the number of dimensions after them is (arrays that come alone, without their partner, are
   rejected by predict_checks). *)
Definition cuda_predict_vis (int32 : bool * bool * bool) (double : bool) (x : extents) (order : nat -> nat -> list (nat * nat * nat))
    (und : regs) (garbage : nat -> RC) (a : predict_in RC) : res (vis_arr RC) :=
  do! ncorrs <- corr_dims a;
  do! (row, chan, corr) <- output_shape a;
  do! full <- (if Nat.eqb ncorrs 2 then Ok true else if Nat.eqb ncorrs 1 then Ok false else Raise ValueError);
  let less := fun n => if full then n - 1 else n in
  let ddes := pair_of (p_dde1 a) (p_dde2 a) in
  let dies := pair_of (p_die1 a) (p_die2 a) in
  let nd1 := option_map (fun e => if ddes then less (d_ndim e) else d_ndim e) (p_dde1 a) in
  let nd2 := option_map (fun e => if ddes then match nd1 with Some n => n | None => 0 end else d_ndim e) (p_dde2 a) in
  let ng1 := option_map (fun g => if dies then less (g_ndim g) else g_ndim g) (p_die1 a) in
  let ng2 := option_map (fun g => if dies then match ng1 with Some n => n | None => 0 end else g_ndim g) (p_die2 a) in
  do! _ <- predict_checks 1 1 1 nd1 (option_map (fun e => less (h_ndim e)) (p_coh a)) nd2 ng1
                          (option_map (fun e => less (v_ndim e)) (p_bvis a)) ng2;
  if negb (fst (fst int32)) then Raise TypeError
  else if negb (snd (fst int32)) then Raise TypeError
  else if negb (snd int32) then Raise TypeError
  else
    let corrs := flat_corrs full corr in
    let blockdimy := if double then 24 else 32 in
    do! g <- grids [Z.of_nat (chan * corrs); Z.of_nat row; 1]%Z [Z.of_nat warp_size; Z.of_nat blockdimy; 1]%Z;
    if Nat.eqb (p_nrow a) 0 then Raise ValueError           (* time_index.min() *)
    else
      do! nchan <- kernel_nchan a;
      if negb (jm_ok corrs a) then Raise compile_exn
      else
        let '(ntime, na) := kernel_time_na a x in
        let c := corr_at full corr in
        let dde := fun e => flat [d_src e; fst (x_dde x); snd (x_dde x); d_chan e; corrs]
          (fun i => match i with [s; t; p; f; q] => c (d_at e s t p f) q | _ => c0 end) in
        let die := fun g => flat [fst (x_die x); snd (x_die x); g_chan g; corrs]
          (fun i => match i with [t; p; f; q] => c (g_at g t p f) q | _ => c0 end) in
        let k := {| k_nrow := p_nrow a; k_nchan := nchan; k_corrs := corrs; k_nsrc := kernel_nsrc a; k_ntime := ntime; k_na := na;
                    k_time := zmin_index (p_nrow a) (p_time a); k_ant1 := p_ant1 a; k_ant2 := p_ant2 a;
                    k_dde1 := option_map dde (p_dde1 a);
                    k_coh := option_map (fun e => flat [h_src e; h_row e; h_chan e; corrs]
                      (fun i => match i with [s; r; f; q] => c (h_at e s r f) q | _ => c0 end)) (p_coh a);
                    k_dde2 := option_map dde (p_dde2 a);
                    k_die1 := option_map die (p_die1 a);
                    k_bvis := option_map (fun e => flat [v_row e; v_chan e; corrs]
                      (fun i => match i with [r; f; q] => c (v_at e r f) q | _ => c0 end)) (p_bvis a);
                    k_die2 := option_map die (p_die2 a) |} in
        let gx := Z.to_nat (nth 0 g 0%Z) in
        let gy := Z.to_nat (nth 1 g 0%Z) in
        let out := fold_left (fun out w => run_warp k und blockdimy w out) (order gx gy) garbage in
        Ok {| v_ndim := if full then 4 else 3; v_row := row; v_chan := chan; v_corr := corr;
              v_at := fun r f i j => out (ravel [row; chan; corrs] [r; f; if full then i * corr + j else i]) |}.
