(* Model of /repo/africanus/rime/cuda/beam.py, beam.cu.j2 and beam_freq_interp.cu.j2 as kernels of CudaModel.v, over the reals.
   Arrays are contiguous.  Rounding, overflow and faults of reads outside an array are not modelled (such a read gives some
   value). *)
From Coq Require Import Reals.
From Verif Require Import Prelude CRing CplxR UtilModel BeamModel DaskRimeModel CudaModel CudaRimeModel.
Open Scope nat_scope.

Definition beam_nud_limit : nat := 2 ^ 7.                       (* beam.py:33 *)
(* an array of this shape in memory *)
Definition memory {A} (shape : list nat) (at_ : list nat -> A) : nat -> A := fun i => at_ (unravel shape i).

(* ---------- beam_freq_interp.cu.j2 ---------- *)
(* The shared memory has beam_freqs[i] at [i]; the output freq_data[c*nchan + chan] is at [c; chan].  No thread leaves before the
   barrier.  Lines 31-76 are those of freq_grid_interp on the shared copy of the map. *)
Definition interp_data (nud : nat) (beam_freq_map : nat -> R) (freq : R) (c : nat) : R :=
  let '(freq_scale, freq_ratio, freq_grid) := freq_grid_interp nud beam_freq_map freq in
  match c with 0 => freq_scale | 1 => freq_ratio | _ => IZR freq_grid end.
Definition interp_kernel (bdx gx limit nud nchan : nat) (beam_freq_map frequencies : arr R) : kernel R R :=
  let chan := fun b t => b * bdx + t in
  {| kn_blocks := gx; kn_threads := bdx; kn_phases := 2;
     kn_active := fun _ _ => true;
     kn_group := fun _ _ => 0;
     kn_code := fun p b t =>
       match p with
       | 0 => if Nat.ltb (chan b t) limit then [Share [t] (fun _ => beam_freq_map (chan b t))] else []
       | _ => if Nat.leb nchan (chan b t) then [] else
                map (fun c => Store [c; chan b t] (fun m => interp_data nud (fun i => m [i]) (frequencies (chan b t)) c)) (seq 0 3)
       end |}.

(* ---------- beam.cu.j2 ---------- *)
(* lines 21-47: one of the eight contributions; gl, gm, gchan are converted to int *)
Definition trilinear (beam : nat -> RC) (beam_mh beam_nud ncorr corr : nat) (gl gm gchan : Z) (weight : R) (st : RC * R) : RC * R :=
  let i := ((Z.to_nat gl * beam_mh + Z.to_nat gm) * beam_nud + Z.to_nat gchan) * ncorr + corr in
  let data := beam i in
  let pol_sum := fst st in
  (((fst pol_sum + weight * fst data)%R, (snd pol_sum + weight * snd data)%R),
   (snd st + weight * sqrt (fst data * fst data + snd data * snd data))%R).
(* lines 161-277, one source.  clamp(zero, l, n - 1) expands to min(n - 1, max(zero, l)). *)
Definition thread_value (beam : nat -> RC) (beam_lw beam_mh beam_nud ncorr corr : nat)
    (lower_l lower_m lscale mscale pa_sin pa_cos pe_x pe_y as_x as_y freq_scale nud gc : R) (x y : R) : RC :=
  let x := (x * freq_scale)%R in
  let y := (y * freq_scale)%R in
  let tl := (x + pe_x)%R in
  let tm := (y + pe_y)%R in
  let l := (tl * pa_cos - tm * pa_sin)%R in
  let m := (tl * pa_sin + tm * pa_cos)%R in
  let l := (l * as_x)%R in
  let l := (lscale * (l - lower_l))%R in
  let l := Rmin (IZR (Z.of_nat beam_lw - 1)) (Rmax 0 l) in
  let gl0 := Int_part l in
  let gl1 := Z.min (gl0 + 1) (Z.of_nat beam_lw - 1) in
  let ld := (l - IZR gl0)%R in
  let m := (m * as_y)%R in
  let m := (mscale * (m - lower_m))%R in
  let m := Rmin (IZR (Z.of_nat beam_mh - 1)) (Rmax 0 m) in
  let gm0 := Int_part m in
  let gm1 := Z.min (gm0 + 1) (Z.of_nat beam_mh - 1) in
  let md := (m - IZR gm0)%R in
  let tri := trilinear beam beam_mh beam_nud ncorr corr in
  let gc0 := Int_part gc in
  let st : RC * R := ((0%R, 0%R), 0%R) in
  let st := tri gl0 gm0 gc0 ((1 - ld) * (1 - md) * nud)%R st in
  let st := tri gl1 gm0 gc0 (ld * (1 - md) * nud)%R st in
  let st := tri gl0 gm1 gc0 ((1 - ld) * md * nud)%R st in
  let st := tri gl1 gm1 gc0 (ld * md * nud)%R st in
  let inv_nud := (1 - nud)%R in
  let gc1 := (gc0 + 1)%Z in
  let st := tri gl0 gm0 gc1 ((1 - ld) * (1 - md) * inv_nud)%R st in
  let st := tri gl1 gm0 gc1 (ld * (1 - md) * inv_nud)%R st in
  let st := tri gl0 gm1 gc1 ((1 - ld) * md * inv_nud)%R st in
  let st := tri gl1 gm1 gc1 (ld * md * inv_nud)%R st in
  let pol_sum := fst st in
  let s := (fst pol_sum * fst pol_sum + snd pol_sum * snd pol_sum)%R in
  let norm := if Req_EM_T s 0 then 1%R else (/ sqrt s)%R in       (* rsqrt(0) is not finite *)
  ((fst pol_sum * (norm * snd st))%R, (snd pol_sum * (norm * snd st))%R).

(* the arguments of the kernel in memory *)
Record beam_args : Type := {
  a_beam : nat -> RC; a_lw : nat; a_mh : nat; a_nud : nat;
  a_ext : nat -> R; a_lm : nat -> R; a_pa : nat -> R; a_pe : nat -> R; a_as : nat -> R; a_freq_data : nat -> nat -> R;
  a_nsrc : nat; a_ntime : nat; a_na : nat; a_nchan : nat; a_ncorr : nat; a_shift : nat
}.
(* Lines 49-283.  Blocks are 32 * bdy * 1 threads, so threadIdx.z = 0 and TIME = blockIdx.z.  Shared memory: lm_ext[i] at [0; i], lscale and mscale
   at [1; 0] and [1; 1], pa_sin and pa_cos at [2; ty] and [3; ty], pe at [4; ty; chan; c], as at [5; ty; chan; c], freq_data at
   [6; c; chan].  The code relies on the first four threads of a warp having stored lm_ext when the first goes on: with lockstep the
   threads of a warp meet there, without it nothing makes them. *)
Definition beam_kernel (lockstep : bool) (bdx bdy gx gy gz : nat) (a : beam_args) : kernel R RC :=
  let tx := fun t => t mod bdx in
  let ty := fun t => t / bdx in
  let time := fun b => b / (gx * gy) in
  let ant := fun b t => ((b / gx) mod gy) * bdy + ty t in
  let chancorr := fun b t => (b mod gx) * bdx + tx t in
  let nchancorr := a_nchan a * a_ncorr a in
  let thread_chan := fun t => Nat.shiftr (tx t) (a_shift a) in
  let thread_corr := fun t => Nat.land (tx t) (a_ncorr a - 1) in
  let chan := fun b t => Nat.shiftr (chancorr b t) (a_shift a) in
  {| kn_blocks := gx * gy * gz; kn_threads := bdx * bdy; kn_phases := 3;
     kn_active := fun b t => negb (Nat.leb (a_ntime a) (time b) || Nat.leb (a_na a) (ant b t) || Nat.leb nchancorr (chancorr b t));
     kn_group := fun p t => match p with 0 => if lockstep then t / bdx else t | _ => 0 end;
     kn_code := fun p b t =>
       match p with
       | 0 => if Nat.ltb (tx t) 4 then [Share [0; tx t] (fun _ => a_ext a (tx t))] else []
       | 1 =>
           (if Nat.eqb (ty t) 0 && Nat.eqb (tx t) 0 then
              [Share [1; 0] (fun m => (IZR (Z.of_nat (a_lw a) - 1) / (m [0%nat; 1%nat] - m [0%nat; 0%nat]))%R);
               Share [1; 1] (fun m => (IZR (Z.of_nat (a_mh a) - 1) / (m [0%nat; 3%nat] - m [0%nat; 2%nat]))%R)] else []) ++
           (if Nat.eqb (thread_corr t) 0 then
              let i := (time b * a_na a + ant b t) * a_nchan a + chan b t in
              [Share [4; ty t; thread_chan t; 0] (fun _ => a_pe a (2 * i)); Share [4; ty t; thread_chan t; 1] (fun _ => a_pe a (2 * i + 1))] else []) ++
           (if Nat.eqb (thread_corr t) 0 then
              let i := ant b t * a_nchan a + chan b t in
              [Share [5; ty t; thread_chan t; 0] (fun _ => a_as a (2 * i)); Share [5; ty t; thread_chan t; 1] (fun _ => a_as a (2 * i + 1))] else []) ++
           (if Nat.eqb (tx t) 0 then
              let pa := a_pa a (time b * a_na a + ant b t) in
              [Share [2; ty t] (fun _ => sin pa); Share [3; ty t] (fun _ => cos pa)] else []) ++
           (if Nat.eqb (ty t) 0 && Nat.eqb (thread_corr t) 0 then
              map (fun c => Share [6; c; thread_chan t] (fun _ => a_freq_data a c (chan b t))) (seq 0 3) else [])
       | _ =>
           map (fun src =>
             Store [((src * a_ntime a + time b) * a_na a + ant b t) * nchancorr + chancorr b t] (fun m =>
               thread_value (a_beam a) (a_lw a) (a_mh a) (a_nud a) (a_ncorr a) (thread_corr t)
                 (m [0; 0]) (m [0; 2]) (m [1; 0]) (m [1; 1]) (m [2; ty t]) (m [3; ty t])
                 (m [4; ty t; thread_chan t; 0]) (m [4; ty t; thread_chan t; 1]) (m [5; ty t; thread_chan t; 0]) (m [5; ty t; thread_chan t; 1])
                 (m [6; 0; thread_chan t]) (m [6; 1; thread_chan t]) (m [6; 2; thread_chan t])
                 (a_lm a (2 * src)) (a_lm a (2 * src + 1)))) (seq 0 (a_nsrc a))
       end |}.

Inductive beam_type : Type := Complex64 | Complex128 | NotComplex.
(* beam.py:64 *)
Definition corr_shifter (ncorr : nat) : option nat := match ncorr with 4 => Some 2 | 2 => Some 1 | 1 => Some 0 | _ => None end.
(* beam.py:67-140, when the kernel has not been generated before *)
Definition generate_main (lw mh nud ncorr : nat) (bt : beam_type) : res (nat * nat) :=
  if Nat.ltb lw 2 || Nat.ltb mh 2 || Nat.ltb nud 2 then Raise ValueError
  else
    do! bdy <- (match bt with Complex64 => Ok 32 | Complex128 => Ok 16 | NotComplex => Raise TypeError end);
    match corr_shifter ncorr with Some s => Ok (bdy, s) | None => Raise ValueError end.
(* beam.py:143-200 with the arguments of beam_cube_dde on the CPU and flattened correlations: the frequency kernel, and the main kernel
   given what the first left in freq_data *)
Definition cuda_beam_cube_dde (lockstep : bool) (bt : beam_type) (b : cube) (ncorr : nat) (ext : arr2 R) (nmap : nat) (beam_freq_map : arr R)
    (nsrc : nat) (lm : arr2 R) (ntime na : nat) (pa : arr2 R) (point_errors : nat -> nat -> nat -> arr R) (antenna_scaling : arr3 R)
    (nchan : nat) (frequency : arr R) : res (kernel R R * ((name -> R) -> kernel R RC)) :=
  if Nat.leb beam_nud_limit (b_nud b) then Raise ValueError
  else
    do! (bdy, shift) <- generate_main (b_lw b) (b_mh b) (b_nud b) ncorr bt;
    do! ig <- grids [Z.of_nat nchan; 1; 1]%Z [Z.of_nat (2 ^ 10); 1; 1]%Z;
    do! g <- grids [Z.of_nat (nchan * ncorr); Z.of_nat na; Z.of_nat ntime]%Z [32; Z.of_nat bdy; 1]%Z;
    Ok (interp_kernel (2 ^ 10) (grid_dim ig 0) beam_nud_limit nmap nchan beam_freq_map frequency,
        fun freq_data =>
          beam_kernel lockstep 32 bdy (grid_dim g 0) (grid_dim g 1) (grid_dim g 2)
            {| a_beam := memory [b_lw b; b_mh b; b_nud b; ncorr] (fun i => match i with [l; m; f; c] => b_at b l m f c | _ => c0 end);
               a_lw := b_lw b; a_mh := b_mh b; a_nud := b_nud b;
               a_ext := memory [2; 2] (fun i => match i with [r; c] => ext r c | _ => 0%R end);
               a_lm := memory [nsrc; 2] (fun i => match i with [s; c] => lm s c | _ => 0%R end);
               a_pa := memory [ntime; na] (fun i => match i with [t; p] => pa t p | _ => 0%R end);
               a_pe := memory [ntime; na; nchan; 2] (fun i => match i with [t; p; f; c] => point_errors t p f c | _ => 0%R end);
               a_as := memory [na; nchan; 2] (fun i => match i with [p; f; c] => antenna_scaling p f c | _ => 0%R end);
               a_freq_data := fun c f => freq_data [c; f];
               a_nsrc := nsrc; a_ntime := ntime; a_na := na; a_nchan := nchan; a_ncorr := ncorr; a_shift := shift |}).
