(* What the types of results should be.  Types have a kind and a precision. *)
From Coq Require Import String.
From Verif Require Import Prelude DtypeModel.
Open Scope list_scope.
Open Scope nat_scope.

(* more than single precision is needed for the values *)
Definition double_needed (d : dtype) : Prop := d = I32 \/ d = I64 \/ d = U32 \/ d = U64 \/ d = F64 \/ d = C128.
Definition extended (d : dtype) : Prop := d = F128 \/ d = C256.

(* floating types of single or double precision, and the complex ones *)
Definition real_type (d : dtype) : Prop := d = F32 \/ d = F64.
Definition complex_type (d : dtype) : Prop := d = C64 \/ d = C128.
Definition data_type (d : dtype) : Prop := real_type d \/ complex_type d.
Definition is_double (d : dtype) : Prop := d = F64 \/ d = C128.
Definition of_kind_and_precision (complex double : Prop) (d : dtype) : Prop :=
  data_type d /\ (complex_type d <-> complex) /\ (is_double d <-> double).

Definition all_given (P : dtype -> Prop) (l : list (option dtype)) : Prop := forall d, In (Some d) l -> P d.

(* arrays of the types for which the functions are meant *)
Definition well_typed (c : call) : Prop :=
  match c with
  | PhaseDelay a b c => real_type a /\ real_type b /\ real_type c
  | Parangles _ t p => real_type t /\ real_type p
  | FeedRotation d => real_type d
  | TransformSources o => all_given real_type [o]
  | BeamCube b => complex_type b
  | Zernike c => data_type c
  | Predict a b c d e f => all_given data_type [a; b; c; d; e; f]
  | Wsclean a b c d l e f => real_type a /\ real_type b /\ real_type c /\ real_type d /\ l = Bool /\ real_type e /\ real_type f
  | SpectralModel a b c d | Spectra a b c d => real_type a /\ real_type b /\ real_type c /\ real_type d
  | Gaussian a b c => real_type a /\ real_type b /\ real_type c
  | FitSpi d => real_type d
  | Corrupt j m | ComputeAndCorrupt j m | Correct j m | Jhj j m => complex_type j /\ complex_type m
  | Residual j v m | Jhr j v m => complex_type j /\ complex_type v /\ complex_type m
  | ImToVis i u l f o => real_type i /\ real_type u /\ real_type l /\ real_type f /\ all_given complex_type [o]
  | VisToIm v u l f o => data_type v /\ real_type u /\ real_type l /\ real_type f /\ all_given real_type [o]
  | GridModelVis i | GridHessian i => real_type i
  | GridDirty v => complex_type v
  | GridResidual i v => real_type i /\ complex_type v
  end.

(* no more precise than one of the others, no complex among the reals *)
Definition covered (d : dtype) (l : list dtype) : Prop :=
  (complex_type d -> exists e, In e l /\ complex_type e) /\ (is_double d -> exists e, In e l /\ is_double e).

(* when the dask array has the type that it says *)
Definition honest (c : call) : Prop :=
  match c with
  | Parangles TestBackend t p => is_double p -> is_double t
  | Parangles _ t _ => is_double t
  | Predict _ _ _ _ None _ => True
  | Predict a b c d (Some e) f => xorb (have a) (have c) = true \/ xorb (have d) (have f) = true \/ given [a; b; c; d; f] = [] \/ covered e (given [a; b; c; d; f])
  | SpectralModel s p r f | Spectra s p r f => is_double p \/ is_double r \/ is_double f -> is_double s
  | ComputeAndCorrupt j m => j = m
  | Jhj _ _ => False
  | Jhr j _ m => j = m
  | _ => True
  end.

(* sizes in bytes of NumPy's types and of the types of C (CUDA): char, short, int, float, double and the pairs *)
Definition itemsize (d : dtype) : nat :=
  match d with
  | Bool | I8 | U8 => 1 | I16 | U16 | F16 => 2 | I32 | U32 | F32 => 4 | I64 | U64 | F64 | C64 => 8 | F128 | C128 => 16 | C256 => 32
  end.
Inductive c_kind : Type := Truth | SignedInt | UnsignedInt | Real | Pair.
Inductive c_type : string -> nat -> c_kind -> Prop :=
| c_char : c_type "char" 1 SignedInt | c_uchar : c_type "unsigned char" 1 UnsignedInt
| c_short : c_type "short" 2 SignedInt | c_ushort : c_type "unsigned short" 2 UnsignedInt
| c_int : c_type "int" 4 SignedInt | c_uint : c_type "unsigned int" 4 UnsignedInt
| c_float : c_type "float" 4 Real | c_double : c_type "double" 8 Real
| c_float2 : c_type "float2" 8 Pair | c_double2 : c_type "double2" 16 Pair.
Definition kind_of (d : dtype) : c_kind :=
  match d with
  | I8 | I16 | I32 | I64 => SignedInt | F16 | F32 | F64 | F128 => Real | C64 | C128 | C256 => Pair | Bool => Truth | _ => UnsignedInt
  end.

(* the functions of CUDA for double precision: those of C's math.h where there is a word for it, and constructors of pairs *)
Inductive math_function : string -> string -> Prop :=
| m_abs : math_function "abs" "fabs" | m_max : math_function "max" "fmax" | m_min : math_function "min" "fmin"
| m_same : forall f, In f ["cos"; "floor"; "rsqrt"; "sqrt"; "sin"; "sincos"; "sincospi"]%string -> math_function f f.

(* NumPy's safe casts, from what the types can hold: the range of an integer type, and how many bits of an integer a
   floating type (or a part of a complex one) holds exactly.  NumPy also takes 64 bit integers to doubles for safe. *)
Definition int_range (d : dtype) : option (Z * Z) :=
  match d with
  | Bool => Some (0, 1) | U8 => Some (0, 2 ^ 8 - 1) | U16 => Some (0, 2 ^ 16 - 1) | U32 => Some (0, 2 ^ 32 - 1) | U64 => Some (0, 2 ^ 64 - 1)
  | I8 => Some (- 2 ^ 7, 2 ^ 7 - 1) | I16 => Some (- 2 ^ 15, 2 ^ 15 - 1) | I32 => Some (- 2 ^ 31, 2 ^ 31 - 1) | I64 => Some (- 2 ^ 63, 2 ^ 63 - 1)
  | _ => None
  end%Z.
Definition significant_bits (d : dtype) : Z :=
  match d with F16 => 11 | F32 | C64 => 24 | F64 | C128 => 53 | F128 | C256 => 64 | _ => 0 end%Z.
Definition safe_cast (d e : dtype) : bool :=
  match int_range d, int_range e with
  | Some (lo, hi), Some (lo', hi') => (lo' <=? lo)%Z && (hi <=? hi')%Z
  | Some (_, hi), None => (hi <=? 2 ^ significant_bits e)%Z || ((itemsize d =? 8) && (53 <=? significant_bits e)%Z)
  | None, Some _ => false
  | None, None => (significant_bits d <=? significant_bits e)%Z && implb (is_complex d) (is_complex e)
  end.
(* truth values, unsigned and signed integers, real and complex numbers *)
Definition kind_rank (d : dtype) : nat := match kind_of d with Truth => 0 | UnsignedInt => 1 | SignedInt => 2 | Real => 3 | Pair => 4 end.
Definition simpler (d e : dtype) : Prop := kind_rank d < kind_rank e \/ kind_rank d = kind_rank e /\ itemsize d <= itemsize e.
