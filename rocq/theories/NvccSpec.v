(* Specification vocabulary for C110. *)
From Coq Require Import Ascii String.
From Verif Require Import Prelude NvccModel.
Open Scope list_scope.
Open Scope nat_scope.

(* a file or directory of that name exists *)
Definition there (w : world) (p : string) : Prop := p <> ""%string /\ w_exists w p = true.
(* the names under which nvcc is looked for, in order; without a PATH, in the current directory *)
Definition candidates (w : world) : list string :=
  concat (map (fun d => [pjoin d "nvcc"; pjoin d "nvcc.exe"]) (match w_path w with Some l => l | None => [""%string] end)).
Definition first_nvcc (w : world) (f : string) : Prop :=
  exists before after, candidates w = before ++ f :: after /\ there w f /\ forall g, In g before -> ~ there w g.
(* the CUDA directory: CUDA_PATH if that exists; else the one nvcc is in; else /usr/local/cuda if that exists *)
Definition chosen (w : world) (p : option string) : Prop :=
  (there w (w_cuda_path w) -> p = Some (w_cuda_path w)) /\
  (~ there w (w_cuda_path w) ->
     (forall f, first_nvcc w f -> p = Some (w_above w f)) /\
     ((forall f, In f (candidates w) -> ~ there w f) ->
        (there w "/usr/local/cuda" -> p = Some "/usr/local/cuda"%string) /\ (~ there w "/usr/local/cuda" -> p = None))).

(* consecutive lines, from the first on, match the expressions one by one *)
Inductive run_matches {line groups : Type} : list (line -> option groups) -> list line -> list groups -> Prop :=
| run_nil : forall l, run_matches [] l []
| run_cons : forall (r : line -> option groups) x m rs l ms, r x = Some m -> run_matches rs l ms -> run_matches (r :: rs) (x :: l) (m :: ms).

(* calls of compile_using_nvcc among others *)
Definition compilations (h : list (call * world)) : nat := length (filter (fun cw => match fst cw with Compile _ _ _ _ => true | _ => false end) h).
(* a compilation with the caller's options for a given architecture *)
Definition with_my_options (cw : call * world) : Prop := exists a stem ext, fst cw = Compile MyOptions (Some a) stem ext.

(* a process in which CUDA has been found in dir, with these base options and devices *)
Definition prepared (s : proc) (dir : string) (base : list string) (info : cuda_info) : Prop :=
  s_cuda_path s = Some dir /\ dir <> ""%string /\ dir <> "NOT_INITIALIZED"%string /\ s_base s = Some base /\ s_info s = Some info /\ (8000 <= ci_version info)%Z.
(* nothing in the way of a compilation: NVCC is not set, nvcc is there, files can be written and opened *)
Definition willing (w : world) (dir : string) : Prop :=
  w_nvcc w = ""%string /\ there w (pjoin dir "bin/nvcc") /\ w_write w = Ok tt /\ w_dup w = Ok tt /\ w_open w = Ok tt.
(* the command for the source stem.cu in the directory tmp, with the options opts *)
Definition nvcc_command (gencode : Z -> string) (w : world) (dir : string) (base : list string) (info : cuda_info) (tmp stem obj : string) (opts : list string) : list string :=
  [pjoin dir "bin/nvcc"] ++ base ++ [("-I" ++ pjoin dir "include")%string; ("-I" ++ w_cupy w)%string; "-c"%string; (pjoin tmp stem ++ ".cu")%string; "-o"%string; obj] ++
  map (fun d => gencode (fst d * 10 + snd d)%Z) (ci_devices info) ++ ["-O2"%string; "--compiler-options=""-fPIC"""%string] ++ opts ++ ["-cubin"%string].
