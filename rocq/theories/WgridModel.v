(* Model of /repo/africanus/gridding/wgridder: vis2im.py, im2vis.py, im2residim.py, hessian.py and dask.py.  The functions
   ms2dirty and dirty2ms of the ducc library are unknown functions.  Numbers are exact.  Bin indices and counts are naturals. *)
From Coq Require Import Reals.
From Verif Require Import Prelude CRing CplxR DftModel.
Close Scope R_scope.
Open Scope nat_scope.

(* the keyword arguments of ducc that are passed on unchanged *)
Record opts : Type := { pixsize_x : R; pixsize_y : R; epsilon : R; nthreads : nat; do_wstacking : bool }.
(* ducc: rows, channels, uvw (row, 3), frequencies, visibilities (row, chan) or image (nx, ny), weights, mask *)
Record ducc : Type := {
  ms2dirty : opts -> bool -> nat -> nat -> arr2 R -> arr R -> arr2 RC -> option (arr2 R) -> option (arr2 bool) -> nat -> nat -> arr2 R;
  dirty2ms : opts -> nat -> nat -> arr2 R -> arr R -> nat -> nat -> arr2 R -> option (arr2 R) -> option (arr2 bool) -> arr2 RC
}.
(* vis2im.py lines 58-63 and the same lines of the other files; cpus is multiprocessing.cpu_count() *)
Definition options (cpus : nat) (cell : R) (celly : option R) (eps : R) (nthr : nat) (ws : bool) : opts :=
  {| pixsize_x := cell; pixsize_y := match celly with Some y => y | None => cell end; epsilon := eps;
     nthreads := if Nat.eqb nthr 0 then cpus else nthr; do_wstacking := ws |}.

(* x[:, lo:] of a (row, chan) array, an optional one, and x[lo:] of a (chan) array *)
Definition cut {A} (lo : nat) (x : arr2 A) : arr2 A := fun r c => x r (lo + c).
Definition cut_opt {A} (lo : nat) (x : option (arr2 A)) : option (arr2 A) := match x with Some x => Some (cut lo x) | None => None end.
Definition cut1 {A} (lo : nat) (x : arr A) : arr A := fun c => x (lo + c).
(* freq_bin_idx.min() *)
Definition lowest (n : nat) (idx : arr nat) : res nat :=
  match n with O => Raise ValueError | S k => Ok (for_ k (fun i m => Nat.min m (idx (S i))) (idx 0)) end.
(* slice(freq_bin_idx2[i], freq_bin_idx2[i] + freq_bin_counts[i]) of an axis of nchan channels: first element and length *)
Definition bin (nchan nidx : nat) (idx : arr nat) (ncounts : nat) (counts : arr nat) (low i : nat) : res (nat * nat) :=
  if Nat.leb nidx i || Nat.leb ncounts i then Raise IndexError else
  let start := idx i - low in
  let lo := Nat.min start nchan in
  Ok (lo, Nat.min (start + counts i) nchan - lo).

(* the type of the visibilities *)
Inductive vtype : Type := Complex64 | Complex128 | OtherType.
(* vis2im.py lines 16-50 *)
Definition dirty_internal (G : ducc) (o : opts) (double_accum : bool) (nrow nchan : nat) (uvw : arr2 R) (freq : arr R) (vt : vtype) (vis : arr2 RC)
    (nidx : nat) (idx : arr nat) (ncounts : nat) (counts : arr nat) (nx ny : nat) (weights : option (arr2 R)) (flag : option (arr2 bool)) : res (arr3 R) :=
  do! low <- lowest nidx idx;
  if Nat.eqb nrow 0 || Nat.eqb nchan 0 then Raise IndexError else
  match vt with
  | OtherType => Raise ValueError
  | _ =>
      forM nidx (fun i (dirty : arr3 R) =>
        do! (lo, n) <- bin nchan nidx idx ncounts counts low i;
        let img := ms2dirty G o double_accum nrow n uvw (cut1 lo freq) (cut lo vis) (cut_opt lo weights) (cut_opt lo flag) nx ny in
        Ok (fun b x y => if Nat.eqb b i then img x y else dirty b x y)) (fun _ _ _ => 0%R)
  end.
(* vis2im.py lines 53-68 *)
Definition dirty (cpus : nat) (G : ducc) (nrow nchan : nat) uvw freq vt vis nidx idx ncounts counts nx ny cell weights flag celly eps nthr ws double_accum : res (arr3 R) :=
  dirty_internal G (options cpus cell celly eps nthr ws) double_accum nrow nchan uvw freq vt vis nidx idx ncounts counts nx ny weights flag.

(* im2vis.py lines 16-39; the image has shape (nband, nx, ny) *)
Definition model_internal (G : ducc) (o : opts) (nrow nchan : nat) (uvw : arr2 R) (freq : arr R) (nband nx ny : nat) (image : arr3 R)
    (nidx : nat) (idx : arr nat) (ncounts : nat) (counts : arr nat) (weights : option (arr2 R)) (flag : option (arr2 bool)) : res (arr2 RC) :=
  do! low <- lowest nidx idx;
  forM nband (fun i (vis : arr2 RC) =>
    do! (lo, n) <- bin nchan nidx idx ncounts counts low i;
    let v := dirty2ms G o nrow n uvw (cut1 lo freq) nx ny (image i) (cut_opt lo weights) (cut_opt lo flag) in
    Ok (fun r c => if Nat.leb lo c && Nat.ltb c (lo + n) then v r (c - lo) else vis r c)) (fun _ _ => c0).

(* hessian.py lines 16-51 *)
Definition hessian_internal (G : ducc) (o : opts) (double_accum : bool) (nrow nchan : nat) (uvw : arr2 R) (freq : arr R) (nband nx ny : nat) (image : arr3 R)
    (nidx : nat) (idx : arr nat) (ncounts : nat) (counts : arr nat) (weights : option (arr2 R)) (flag : option (arr2 bool)) : res (arr3 R) :=
  do! low <- lowest nidx idx;
  forM nidx (fun i (convolved : arr3 R) =>
    do! (lo, n) <- bin nchan nidx idx ncounts counts low i;
    if Nat.leb nband i then Raise IndexError else
    let modelvis := dirty2ms G o nrow n uvw (cut1 lo freq) nx ny (image i) None (cut_opt lo flag) in
    let img := ms2dirty G o double_accum nrow n uvw (cut1 lo freq) modelvis (cut_opt lo weights) (cut_opt lo flag) nx ny in
    Ok (fun b x y => if Nat.eqb b i then img x y else convolved b x y)) (fun _ _ _ => 0%R).

(* im2residim.py lines 16-52 *)
Definition residual_internal (G : ducc) (o : opts) (double_accum : bool) (nrow nchan : nat) (uvw : arr2 R) (freq : arr R) (nband nx ny : nat) (image : arr3 R) (vis : arr2 RC)
    (nidx : nat) (idx : arr nat) (ncounts : nat) (counts : arr nat) (weights : option (arr2 R)) (flag : option (arr2 bool)) : res (arr3 R) :=
  do! low <- lowest nidx idx;
  forM nidx (fun i (residim : arr3 R) =>
    do! (lo, n) <- bin nchan nidx idx ncounts counts low i;
    if Nat.leb nband i then Raise IndexError else
    let tvis := cut lo vis in
    let modelvis := dirty2ms G o nrow n uvw (cut1 lo freq) nx ny (image i) None (cut_opt lo flag) in
    let residvis : arr2 RC := fun r c => csub (tvis r c) (modelvis r c) in
    let img := ms2dirty G o double_accum nrow n uvw (cut1 lo freq) residvis (cut_opt lo weights) (cut_opt lo flag) nx ny in
    Ok (fun b x y => if Nat.eqb b i then img x y else residim b x y)) (fun _ _ _ => 0%R).

(* rows r0 on *)
Definition down {A} (r0 : nat) (x : arr2 A) : arr2 A := fun r c => x (r0 + r) c.
Definition down_opt {A} (r0 : nat) (x : option (arr2 A)) : option (arr2 A) := match x with Some x => Some (down r0 x) | None => None end.
(* sum over the blocks of rows, img.sum(axis=0); f is given the first row and the number of rows of a block *)
Fixpoint sum_blocks (f : nat -> nat -> res R) (r0 : nat) (rows : list nat) : res R :=
  match rows with
  | [] => Ok 0%R
  | n :: rest => do! x <- f r0 n; do! y <- sum_blocks f (r0 + n) rest; Ok (x + y)%R
  end.
(* the block of channels going with band b: first band and number of bands, first channel and number of channels.  dask pairs the
   blocks of an index by position. *)
Fixpoint band_block (b0 : nat) (bands : list nat) (q0 : nat) (chans : list nat) (b : nat) : res (nat * nat * (nat * nat)) :=
  match bands, chans with
  | nb :: bands, nc :: chans => if Nat.ltb b (b0 + nb) then Ok ((b0, nb), (q0, nc)) else band_block (b0 + nb) bands (q0 + nc) chans b
  | _, _ => Raise IndexError
  end.
(* da.blockwise without aligning: a single block goes with every block of the other arrays; adjust_chunks then wants as many
   blocks as there are blocks of bands *)
Definition band_blocks (bands chans : list nat) (b : nat) : res (nat * nat * (nat * nat)) :=
  if Nat.eqb (List.length bands) (List.length chans) then band_block 0 bands 0 chans b
  else match chans with [nc] => Ok (locate 0 bands b, (0, nc)) | _ => Raise ValueError end.
(* dask.py lines 75-134: value of band b, pixel (x, y) *)
Definition dask_dirty (cpus : nat) (G : ducc) (rows chans bands : list nat) uvw freq vt vis idx counts nx ny cell weights flag celly eps nthr ws double_accum (b x y : nat) : res R :=
  match vt with
  | OtherType => Raise NameError
  | _ =>
      do! ((b0, nb), (q0, nc)) <- band_blocks bands chans b;
      sum_blocks (fun r0 nr =>
        do! img <- dirty_internal G (options cpus cell celly eps nthr ws) double_accum nr nc (down r0 uvw) (cut1 q0 freq) vt (cut q0 (down r0 vis))
                     nb (cut1 b0 idx) nb (cut1 b0 counts) nx ny (cut_opt q0 (down_opt r0 weights)) (cut_opt q0 (down_opt r0 flag));
        Ok (img (b - b0) x y)) 0 rows
  end.
(* an image block: bands b0 on, columns x0 and y0 on *)
Definition window (b0 x0 y0 : nat) (image : arr3 R) : arr3 R := fun b x y => image (b0 + b) (x0 + x) (y0 + y).
(* dask.py lines 190-243: the image may be chunked in x and y too, and every chunk is treated as an image of its own *)
Definition dask_hessian (cpus : nat) (G : ducc) (rows chans bands xs ys : list nat) uvw freq (image : arr3 R) idx counts cell weights flag celly eps nthr ws double_accum (b x y : nat) : res R :=
  do! ((b0, nb), (q0, nc)) <- band_blocks bands chans b;
  let '(x0, nx) := locate 0 xs x in
  let '(y0, ny) := locate 0 ys y in
  sum_blocks (fun r0 nr =>
    do! img <- hessian_internal G (options cpus cell celly eps nthr ws) double_accum nr nc (down r0 uvw) (cut1 q0 freq) nb nx ny (window b0 x0 y0 image)
                 nb (cut1 b0 idx) nb (cut1 b0 counts) (cut_opt q0 (down_opt r0 weights)) (cut_opt q0 (down_opt r0 flag));
    Ok (img (b - b0) (x - x0) (y - y0))) 0 rows.
(* dask.py lines 137-187 *)
Definition dask_residual (cpus : nat) (G : ducc) (rows chans bands xs ys : list nat) uvw freq (image : arr3 R) (vis : arr2 RC) idx counts cell weights flag celly eps nthr ws double_accum (b x y : nat) : res R :=
  do! ((b0, nb), (q0, nc)) <- band_blocks bands chans b;
  let '(x0, nx) := locate 0 xs x in
  let '(y0, ny) := locate 0 ys y in
  sum_blocks (fun r0 nr =>
    do! img <- residual_internal G (options cpus cell celly eps nthr ws) double_accum nr nc (down r0 uvw) (cut1 q0 freq) nb nx ny (window b0 x0 y0 image) (cut q0 (down r0 vis))
                 nb (cut1 b0 idx) nb (cut1 b0 counts) (cut_opt q0 (down_opt r0 weights)) (cut_opt q0 (down_opt r0 flag));
    Ok (img (b - b0) (x - x0) (y - y0))) 0 rows.
(* dask.py lines 24-72: row r and channel c.  nx and ny are summed over, and the wrapper takes the first chunk of each. *)
Fixpoint chan_block (b0 : nat) (bands : list nat) (q0 : nat) (chans : list nat) (c : nat) : res (nat * nat * (nat * nat)) :=
  match bands, chans with
  | nb :: bands, nc :: chans => if Nat.ltb c (q0 + nc) then Ok ((b0, nb), (q0, nc)) else chan_block (b0 + nb) bands (q0 + nc) chans c
  | _, _ => Raise IndexError
  end.
(* here adjust_chunks wants as many blocks as there are blocks of channels *)
Definition chan_blocks (bands chans : list nat) (c : nat) : res (nat * nat * (nat * nat)) :=
  if Nat.eqb (List.length bands) (List.length chans) then chan_block 0 bands 0 chans c
  else match bands with [nb] => Ok ((0, nb), locate 0 chans c) | _ => Raise ValueError end.
Definition dask_model (cpus : nat) (G : ducc) (rows chans bands xs ys : list nat) uvw freq (image : arr3 R) idx counts cell weights flag celly eps nthr ws (r c : nat) : res RC :=
  do! ((b0, nb), (q0, nc)) <- chan_blocks bands chans c;
  let '(r0, nr) := locate 0 rows r in
  match xs, ys with
  | nx :: _, ny :: _ =>
      do! v <- model_internal G (options cpus cell celly eps nthr ws) nr nc (down r0 uvw) (cut1 q0 freq) nb nx ny (window b0 0 0 image)
                 nb (cut1 b0 idx) nb (cut1 b0 counts) (cut_opt q0 (down_opt r0 weights)) (cut_opt q0 (down_opt r0 flag));
      Ok (v (r - r0) (c - q0))
  | _, _ => Raise IndexError
  end.
