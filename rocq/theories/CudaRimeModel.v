(* Model of /repo/africanus/rime/cuda/phase.py, phase.cu.j2, feeds.py and feeds.cu.j2 as kernels of CudaModel.v, over the reals.
   Rounding, data types other than what selects the block shape, and overflow of the index arithmetic are not modelled. *)
From Coq Require Import Reals String.
From Verif Require Import Prelude CRing CplxR UtilModel RimeModel DaskRimeModel CudaModel.
Open Scope nat_scope.

(* TemplatingException of util/jinja2.py:66-72 *)
Definition template_exn : exn := UserExn 8.
(* a two dimensional array in device memory; element (i, j) is at i * s0 + j * s1.  Negative strides are not modelled. *)
Record view : Type := { vw_mem : nat -> R; vw_s0 : nat; vw_s1 : nat }.
Definition elem (v : view) (i j : nat) : R := vw_mem v (i * vw_s0 v + j * vw_s1 v).
(* reinterpret_cast<const T n *>(&a[0])[i], component c: n values in a row, whatever the strides (phase.cu.j2:24-27) *)
Definition packed (v : view) (n i c : nat) : R := vw_mem v (n * i + c).
(* threads of a block of bdx * bdy, blocks of a grid of gx * gy *)
Definition tid_x (bdx t : nat) : nat := t mod bdx.
Definition tid_y (bdx t : nat) : nat := t / bdx.
(* the launch makes at least one block (cupy's Function.__call__ takes max(1, grid)) *)
Definition grid_dim (g : list Z) (i : nat) : nat := Nat.max 1 (Z.to_nat (nth i g 0%Z)).

(* phase.cu.j2:10-60; the shared memory has uvw at [0; ty; c] and frequency at [1; tx] *)
Definition phase_kernel (bdx bdy gx gy nsrc nrow nchan : nat) (lm uvw : view) (frequency : arr R) : kernel R RC :=
  let row := fun b t => (b / gx) * bdy + tid_y bdx t in
  let chan := fun b t => (b mod gx) * bdx + tid_x bdx t in
  {| kn_blocks := gx * gy; kn_threads := bdx * bdy; kn_phases := 2;
     kn_active := fun b t => negb (Nat.leb nrow (row b t) || Nat.leb nchan (chan b t));
     kn_group := fun _ _ => 0;
     kn_code := fun p b t =>
       let ty := tid_y bdx t in let tx := tid_x bdx t in
       match p with
       | 0 => (if Nat.eqb tx 0 then
                 [Share [0; ty; 0] (fun _ => packed uvw 3 (row b t) 0);
                  Share [0; ty; 1] (fun _ => packed uvw 3 (row b t) 1);
                  Share [0; ty; 2] (fun _ => packed uvw 3 (row b t) 2)] else []) ++
              (if Nat.eqb ty 0 then [Share [1; tx] (fun _ => frequency (chan b t))] else [])
       | _ => map (fun source =>
                Store [source; row b t; chan b t] (fun m =>
                  let x := packed lm 2 source 0 in let y := packed lm 2 source 1 in
                  let n := (sqrt (1 - x * x - y * y) - 1)%R in
                  let real_phase := (x * m [0%nat; ty; 0%nat] + y * m [0%nat; ty; 1%nat] + n * m [0%nat; ty; 2%nat])%R in
                  let real_phase := (minus_two_pi_over_c * real_phase * m [1%nat; tx])%R in
                  ((cos real_phase, sin real_phase) : RC))) (seq 0 nsrc)
       end |}.
(* phase.py:33-64; single_f, single_u: frequency and uvw have dtype float32.  Only the fourier convention exists. *)
Definition cuda_phase_delay (single_f single_u : bool) (nsrc nrow nchan : nat) (lm uvw : view) (frequency : arr R) : res (kernel R RC) :=
  let bdx := if single_f then 32 else 16 in
  let bdy := if single_u then 32 else 16 in
  do! g <- grids [Z.of_nat nchan; Z.of_nat nrow; 1]%Z [Z.of_nat bdx; Z.of_nat bdy; 1]%Z;
  Ok (phase_kernel bdx bdy (grid_dim g 0) (grid_dim g 1) nsrc nrow nchan lm uvw frequency).

(* feeds.cu.j2:27-62; the structure at base_ptr[pa] is the four elements of row pa of the output *)
Definition feed_kernel (bdx gx npa : nat) (parangles : arr R) (linear : bool) : kernel R RC :=
  let pa := fun b t => b * bdx + t in
  {| kn_blocks := gx; kn_threads := bdx; kn_phases := 1;
     kn_active := fun b t => negb (Nat.leb npa (pa b t));
     kn_group := fun _ _ => 0;
     kn_code := fun _ b t =>
       let pa_sin := sin (parangles (pa b t)) in let pa_cos := cos (parangles (pa b t)) in
       if linear then
         [Store [pa b t; 0] (fun _ => ((pa_cos, 0%R) : RC)); Store [pa b t; 1] (fun _ => ((pa_sin, 0%R) : RC));
          Store [pa b t; 2] (fun _ => (((- pa_sin)%R, 0%R) : RC)); Store [pa b t; 3] (fun _ => ((pa_cos, 0%R) : RC))]
       else
         [Store [pa b t; 0] (fun _ => ((pa_cos, (- pa_sin)%R) : RC)); Store [pa b t; 1] (fun _ => ((0%R, 0%R) : RC));
          Store [pa b t; 2] (fun _ => ((0%R, 0%R) : RC)); Store [pa b t; 3] (fun _ => ((pa_cos, pa_sin) : RC))] |}.
Inductive dtype : Type := F32 | F64 | OtherType.
(* feeds.py:36-82: the kernel for angles of this shape.  The angles are ravelled, and element idx, i, j of the reshaped result is
   the output [ravel shape idx; 2 * i + j]. *)
Definition cuda_feed_rotation (shape : list nat) (pa : list nat -> R) (dt : dtype) (feed_type : string) : res (kernel R RC) :=
  do! bdx <- (match dt with F32 => Ok (2 ^ 10) | F64 => Ok (2 ^ 9) | OtherType => Raise TypeError end);
  do! linear <- (if String.eqb feed_type "linear" then Ok true else if String.eqb feed_type "circular" then Ok false else Raise template_exn);
  let npa := prodn shape in
  do! g <- grids [Z.of_nat npa; 1; 1]%Z [Z.of_nat bdx; 1; 1]%Z;
  Ok (feed_kernel bdx (grid_dim g 0) npa (fun i => pa (unravel shape i)) linear).
