(* Model of the data types of results: africanus/util/type_inference.py, africanus/util/cuda.py, and for every function with a
   dask form the type that the dask array declares and the type of the blocks that are computed; and the types of the CUDA
   forms of phase_delay, feed_rotation and predict_vis.  Only types are modelled here, values are elsewhere.  Left out:
   coherency conversion, the averaging columns, the nifty and the Perley gridders. *)
From Coq Require Import String.
From Verif Require Import Prelude.
Open Scope list_scope.
Open Scope nat_scope.

(* NumPy's numeric types on a 64 bit Linux: F128 and C256 are longdouble and clongdouble *)
Inductive dtype : Type := Bool | I8 | I16 | I32 | I64 | U8 | U16 | U32 | U64 | F16 | F32 | F64 | F128 | C64 | C128 | C256.

Scheme Equality for dtype.

Definition is_complex (d : dtype) : bool := match d with C64 | C128 | C256 => true | _ => false end.
Definition is_float (d : dtype) : bool := match d with F16 | F32 | F64 | F128 => true | _ => false end.

(* NumPy (not in /repo): the size in bits of the smallest floating type for the values, or of the parts of a complex type *)
Definition float_bits (d : dtype) : nat :=
  match d with
  | Bool | I8 | U8 | F16 => 16
  | I16 | U16 | F32 | C64 => 32
  | I32 | I64 | U32 | U64 | F64 | C128 => 64
  | F128 | C256 => 128
  end.
Definition of_float (n : nat) : dtype := if n <=? 16 then F16 else if n <=? 32 then F32 else if n <=? 64 then F64 else F128.
Definition of_complex (n : nat) : dtype := if n <=? 32 then C64 else if n <=? 64 then C128 else C256.

(* NumPy: integers have a sign and a size *)
Definition int_bits (d : dtype) : nat := match d with Bool => 0 | I8 | U8 => 8 | I16 | U16 => 16 | I32 | U32 => 32 | _ => 64 end.
Definition is_signed (d : dtype) : bool := match d with I8 | I16 | I32 | I64 => true | _ => false end.
Definition of_signed (n : nat) : dtype := if n <=? 8 then I8 else if n <=? 16 then I16 else if n <=? 32 then I32 else if n <=? 64 then I64 else F64.
Definition of_unsigned (n : nat) : dtype := if n =? 0 then Bool else if n <=? 8 then U8 else if n <=? 16 then U16 else if n <=? 32 then U32 else U64.

(* NumPy: promote_types.  A signed and an unsigned integer need a signed type of twice the bits of the latter, or float64. *)
Definition promote (a b : dtype) : dtype :=
  if is_complex a || is_complex b then of_complex (max (float_bits a) (float_bits b))
  else if is_float a || is_float b then of_float (max (float_bits a) (float_bits b))
  else
    if is_signed a then (if is_signed b then of_signed (max (int_bits a) (int_bits b)) else of_signed (max (int_bits a) (2 * int_bits b)))
    else if is_signed b then of_signed (max (2 * int_bits a) (int_bits b))
    else of_unsigned (max (int_bits a) (int_bits b)).

(* NumPy: result_type of types, from left to right (as before NumPy 1.20; the order only matters for signed with unsigned
   integers in front of a floating type).  No types: ValueError. *)
Definition result_type (l : list dtype) : res dtype :=
  match l with [] => Raise ValueError | d :: l => Ok (fold_left promote l d) end.

(* type_inference.py:14-22: what an argument may be *)
Inductive argument : Type := NumpyArray (d : dtype) | NumbaArray (d : dtype) | DaskArray (d : dtype) | OtherArgument.
Definition numpy_dtype (a : argument) : res dtype :=
  match a with NumpyArray d => Ok d | NumbaArray d => Ok d | DaskArray d => Ok d | OtherArgument => Raise ValueError end.

Fixpoint all_dtypes (l : list argument) : res (list dtype) :=
  match l with [] => Ok [] | a :: l => do! d <- numpy_dtype a; do! r <- all_dtypes l; Ok (d :: r) end.

(* type_inference.py:25-27 *)
Definition infer_complex_dtype (l : list argument) : res dtype := do! ds <- all_dtypes l; result_type (C64 :: ds).

(* the arrays that are given *)
Fixpoint given {A} (l : list (option A)) : list A :=
  match l with [] => [] | Some a :: l => a :: given l | None :: l => given l end.

Definition have {A} (o : option A) : bool := match o with Some _ => true | None => false end.

(* predict.py:431-447: the checks of what is present, then the type (the numbers of dimensions are in PredictModel) *)
Definition np_predict (dde1 coh dde2 die1 base die2 : option dtype) : res dtype :=
  if xorb (have dde1) (have dde2) then Raise ValueError else
  if xorb (have die1) (have die2) then Raise ValueError else
  result_type (given [dde1; coh; dde2; die1; base; die2]).

(* dask_predict.py:405-409 *)
Definition dask_predict_declared (dde1 coh dde2 die1 base die2 : option dtype) : res dtype :=
  if xorb (have dde1) (have dde2) then Raise ValueError else
  if xorb (have die1) (have die2) then Raise ValueError else
  result_type (given [dde1; coh; dde2; die1; die2]).

(* dask_predict.py:411-455: blocks of coherencies are summed, the base visibilities are added (dask's addition of blocks),
   the result and the antenna terms go to predict_vis once more *)
Definition dask_predict_computed (dde1 coh dde2 die1 base die2 : option dtype) : res dtype :=
  do! _ <- dask_predict_declared dde1 coh dde2 die1 base die2;
  do! sum <- (if have coh || (have dde1 && have dde2) then do! d <- np_predict dde1 coh dde2 None None None; Ok (Some d) else Ok None);
  if negb (have die1 && have die2) && negb (have base) then match sum with Some d => Ok d | None => Raise AssertionError end else
  let base' := match sum, base with
               | None, b => b
               | Some d, None => Some d
               | Some d, Some b => Some (promote b d)
               end in
  np_predict None None None die1 base' die2.

Inductive backend : Type := Casa | Astropy | TestBackend.

(* A call of a function with a dask form: the types of the arguments that matter *)
Inductive call : Type :=
| PhaseDelay (lm uvw frequency : dtype)
| Parangles (b : backend) (times positions : dtype)
| FeedRotation (angles : dtype)
| TransformSources (asked : option dtype)
| BeamCube (beam : dtype)
| Zernike (coeffs : dtype)
| Predict (dde1 coh dde2 die1 base die2 : option dtype)
| Wsclean (uvw lm flux coeffs log_poly ref_freq frequency : dtype)
| SpectralModel (stokes spi ref_freq frequency : dtype)
| Spectra (flux coeffs ref_freq frequency : dtype)
| Gaussian (uvw frequency shape : dtype)
| FitSpi (data : dtype)
| Corrupt (jones model : dtype)
| ComputeAndCorrupt (jones model : dtype)
| Correct (jones vis : dtype)
| Residual (jones vis model : dtype)
| Jhj (jones model : dtype)
| Jhr (jones residual model : dtype)
| ImToVis (image uvw lm frequency : dtype) (asked : option dtype)
| VisToIm (vis uvw lm frequency : dtype) (asked : option dtype)
| GridModelVis (image : dtype)
| GridDirty (vis : dtype)
| GridResidual (image vis : dtype)
| GridHessian (image : dtype).

(* feeds.py:59-66, rime/dask.py:65-71: the same tests twice *)
Definition feed_type (d : dtype) : res dtype := match d with F32 => Ok C64 | F64 => Ok C128 | _ => Raise ValueError end.

(* numba: dtype.underlying_float; NumPy: array.real.dtype *)
Definition real_part (d : dtype) : dtype := match d with C64 => F32 | C128 => F64 | C256 => F128 | d => d end.

Definition default {A} (o : option A) (d : A) : A := match o with Some a => a | None => d end.

(* the type that the function without dask returns *)
Definition computed_np (c : call) : res dtype :=
  match c with
  | PhaseDelay lm uvw f => infer_complex_dtype [NumbaArray lm; NumbaArray uvw; NumbaArray f]      (* phase.py:16, 27 *)
  | Parangles Casa _ _ | Parangles Astropy _ _ => Ok F64                                           (* parangles_casa.py:50-60: Python floats; astropy: Time is double *)
  | Parangles TestBackend t p => Ok (promote t p)                                                  (* parangles.py:73 *)
  | FeedRotation d => feed_type d                                                                  (* feeds.py:59-70 *)
  | TransformSources o => Ok (default o F64)                                                       (* transform.py:92-93 *)
  | BeamCube b => Ok b                                                                             (* fast_beam_cubes.py:96 *)
  | Zernike c => Ok c                                                                              (* zernike.py:94 *)
  | Predict a b c d e f => np_predict a b c d e f
  | Wsclean uvw lm flux coeffs log_poly rf f => result_type [C64; uvw; lm; flux; coeffs; rf; f]    (* wsclean_predict.py:92-94 *)
  | SpectralModel s p r f => result_type [s; p; r; f]                                              (* spectral/spec_model.py:98-100, 159 *)
  | Spectra s p r f => result_type [s; p; r; f]                                                    (* wsclean/spec_model.py:62-64, 77 *)
  | Gaussian u f s => result_type [u; f; s]                                                        (* gaussian_shape.py:18-19, 26 *)
  | FitSpi d => Ok d                                                                               (* component_spi.py:64 *)
  | Corrupt j m => Ok m                                                                            (* corrupt_vis.py:74 *)
  | ComputeAndCorrupt j m => Ok j                                                                  (* compute_and_corrupt_vis.py:92 *)
  | Correct j v => Ok v                                                                            (* correct_vis.py:88 *)
  | Residual j v m => Ok v                                                                         (* residual_vis.py:78 *)
  | Jhj j m => Ok (real_part j)                                                                    (* phase_only.py:91 *)
  | Jhr j r m => Ok j                                                                              (* phase_only.py:131 *)
  | ImToVis i u l f None => result_type [C64; i; u; l; f]                                          (* dft/kernels.py:18-21 *)
  | ImToVis _ _ _ _ (Some d) => Ok d                                                               (* dft/kernels.py:23 *)
  | VisToIm v u l f None => result_type [real_part v; u; l; f]                                     (* dft/kernels.py:69-78 *)
  | VisToIm _ _ _ _ (Some d) => Ok d                                                               (* dft/kernels.py:80-83: the argument is a type object, so that the test for Complex is never true *)
  | GridModelVis i => result_type [i; C64]                                                         (* wgridder/im2vis.py:24 *)
  | GridDirty v => match v with C64 => Ok F32 | C128 => Ok F64 | _ => Raise ValueError end         (* wgridder/vis2im.py:23-30 *)
  | GridResidual i v => Ok i                                                                       (* wgridder/im2residim.py:26 *)
  | GridHessian i => Ok i                                                                          (* wgridder/hessian.py:26 *)
  end.

(* the type that the dask array has before it is computed *)
Definition declared (c : call) : res dtype :=
  match c with
  | PhaseDelay lm uvw f => infer_complex_dtype [DaskArray lm; DaskArray uvw; DaskArray f]          (* rime/dask.py:42 *)
  | Parangles _ t _ => Ok t                                                                        (* rime/dask.py:56 *)
  | FeedRotation d => feed_type d                                                                  (* rime/dask.py:65-77 *)
  | TransformSources o => Ok (default o F64)                                                       (* rime/dask.py:91-103 *)
  | BeamCube b => Ok b                                                                             (* rime/dask.py:147 *)
  | Zernike c => Ok c                                                                              (* rime/dask.py:170 *)
  | Predict a b c d e f => dask_predict_declared a b c d e f
  | Wsclean uvw lm flux coeffs log_poly rf f =>                                                    (* dask_predict.py:472-485 *)
      do! s <- result_type [flux; coeffs; log_poly; rf; f]; result_type [uvw; lm; f; s; C64]
  | SpectralModel s p r f => Ok s                                                                  (* spectral/dask.py:34 *)
  | Spectra s p r f => Ok s                                                                        (* wsclean/dask.py:31 *)
  | Gaussian u f s => result_type [u; f; s]                                                        (* shape/dask.py:24 *)
  | FitSpi d => Ok d                                                                               (* spi/dask.py:47 *)
  | Corrupt j m => Ok m                                                                            (* calibration/utils/dask.py:70 *)
  | ComputeAndCorrupt j m => Ok m                                                                  (* calibration/utils/dask.py:131 *)
  | Correct j v => Ok v                                                                            (* calibration/utils/dask.py:176 *)
  | Residual j v m => Ok v                                                                         (* calibration/utils/dask.py:227 *)
  | Jhj j m => Ok m                                                                                (* phase_only/dask.py:40 *)
  | Jhr j r m => Ok m                                                                              (* phase_only/dask.py:67 *)
  | ImToVis _ _ _ _ o => Ok (default o C128)                                                       (* dft/dask.py:27, 47 *)
  | VisToIm _ _ _ _ o => Ok (default o F64)                                                        (* dft/dask.py:61, 83 *)
  | GridModelVis i => result_type [i; C64]                                                         (* wgridder/dask.py:37, 70 *)
  | GridDirty v => match v with C128 => Ok F64 | C64 => Ok F32 | _ => Raise NameError end          (* wgridder/dask.py:90-93, 131: real_type has no value *)
  | GridResidual i v => Ok i                                                                       (* wgridder/dask.py:185 *)
  | GridHessian i => Ok i                                                                          (* wgridder/dask.py:237 *)
  end.

(* the type of the computed blocks: the wrappers call the function without dask, with the type that was asked for where there
   is such an argument (dft/dask.py:48, 84; dask_predict.py:464-466, 494) *)
Definition computed (c : call) : res dtype :=
  do! _ <- declared c;
  match c with
  | ImToVis i u l f o => computed_np (ImToVis i u l f (Some (default o C128)))
  | VisToIm v u l f o => computed_np (VisToIm v u l f (Some (default o F64)))
  | Wsclean _ _ _ _ _ _ _ => declared c
  | Predict a b c d e f => dask_predict_computed a b c d e f
  | c => computed_np c
  end.

(* cuda.py:24-51 *)
Definition cuda_fns (d : dtype) : option (list (string * string)) :=
  match d with
  | F32 => Some [("abs", "fabsf"); ("cos", "cosf"); ("floor", "floorf"); ("make2", "make_float2"); ("max", "fmaxf"); ("min", "fminf");
                 ("rsqrt", "rsqrtf"); ("sqrt", "sqrtf"); ("sin", "sinf"); ("sincos", "sincosf"); ("sincospi", "sincospif")]%string
  | F64 => Some [("abs", "fabs"); ("cos", "cos"); ("floor", "floor"); ("make2", "make_double2"); ("max", "fmax"); ("min", "fmin");
                 ("rsqrt", "rsqrt"); ("sin", "sin"); ("sincos", "sincos"); ("sincospi", "sincospi"); ("sqrt", "sqrt")]%string
  | _ => None
  end.

Fixpoint lookup (l : list (string * string)) (k : string) : option string :=
  match l with [] => None | (a, b) :: l => if String.eqb a k then Some b else lookup l k end.

(* cuda.py:100-109 *)
Definition cuda_function (name : string) (d : dtype) : res string :=
  match cuda_fns d with
  | None => Raise ValueError
  | Some m => match lookup m name with None => Raise ValueError | Some f => Ok f end
  end.

(* cuda.py:54-65 *)
Definition cuda_type_map (d : dtype) : option string :=
  match d with
  | I8 => Some "char" | U8 => Some "unsigned char" | I16 => Some "short" | U16 => Some "unsigned short"
  | I32 => Some "int" | U32 => Some "unsigned int" | F32 => Some "float" | F64 => Some "double"
  | C64 => Some "float2" | C128 => Some "double2" | _ => None
  end%string.

(* cuda.py:112-119: an array, a type, the class of a type (cuda.py:68-70), or something else *)
Inductive cuda_arg : Type := CudaArray (d : dtype) | CudaDtype (d : dtype) | CudaClass (d : dtype) | CudaOther.
Definition cuda_type (a : cuda_arg) : res string :=
  match a with
  | CudaArray d | CudaDtype d | CudaClass d => match cuda_type_map d with Some s => Ok s | None => Raise ValueError end
  | CudaOther => Raise ValueError
  end.

(* cuda/phase.py:34-60; the names of the other types (cupy's _get_typename) are taken to exist *)
Definition cuda_phase (lm uvw frequency : dtype) : res dtype :=
  do! out <- result_type [lm; uvw; frequency];
  do! _ <- cuda_function "sqrt" lm;
  do! _ <- cuda_function "sincos" out;
  result_type [out; C64].

(* cuda/feeds.py:36-61 *)
Definition cuda_feed (d : dtype) : res dtype :=
  match d with
  | F32 | F64 => do! _ <- cuda_function "sincos" d; result_type [d; C64]
  | _ => Raise TypeError
  end.

(* NumPy: None as a type is float64 *)
Definition none_is_double (o : option dtype) : dtype := default o F64.

(* cuda/predict.py:45-97: the present arrays have their cuda_type looked up from the first to the last, then the output *)
Fixpoint types_exist (l : list dtype) : res unit :=
  match l with [] => Ok tt | d :: l => do! _ <- cuda_type (CudaArray d); types_exist l end.
Definition cuda_predict (time_index antenna1 antenna2 : dtype) (dde1 coh dde2 die1 base die2 : option dtype) : res dtype :=
  if xorb (have dde1) (have dde2) then Raise ValueError else
  if xorb (have die1) (have die2) then Raise ValueError else
  if negb (dtype_beq time_index I32) then Raise TypeError else
  if negb (dtype_beq antenna1 I32) then Raise TypeError else
  if negb (dtype_beq antenna2 I32) then Raise TypeError else
  do! out <- result_type (map none_is_double [dde1; coh; dde2; die1; base; die2]);
  do! _ <- types_exist (given [dde1; dde2; coh; die1; base; die2]);
  do! _ <- cuda_type (CudaDtype out);
  Ok out.

(* cuda/beam.py:102-106: the type of the coordinates, and the assertion about it *)
Definition cuda_coords (ext lm angles errors scaling : dtype) : res dtype :=
  do! t <- result_type [ext; lm; angles; errors; scaling; F32];
  if dtype_beq t F32 || dtype_beq t F64 then Ok t else Raise AssertionError.
