(* C110: compiling CUDA sources with nvcc. *)
From Coq Require Import Ascii String.
From Verif Require Import Prelude NvccModel NvccSpec NvccProofs NvccProofs2 NvccProofs3.
Open Scope list_scope.
Open Scope nat_scope.

(* The CUDA directory is chosen at the first look, and stays whatever is called and however the environment changes (but for
   a directory with the name that stands for none). *)
Theorem C110_cuda_path : forall no_host use_instead literal_eval gencode s w, s_cuda_path s = Some "NOT_INITIALIZED"%string ->
  exists p s', get_cuda_path w s = (Ok p, s') /\ chosen w p /\
    (p <> Some "NOT_INITIALIZED"%string -> forall h w', fst (get_cuda_path w' (history no_host use_instead literal_eval gencode h s')) = Ok p).
Proof. exact path_main. Qed.

(* After any calls, however they ended, no temporary directory is left, stderr leads where it did, and the compiler for
   other sources is cc. *)
Theorem C110_cleaned_up : forall no_host use_instead literal_eval gencode h s,
  let s' := history no_host use_instead literal_eval gencode h s in
  s_temp s' = s_temp s /\ s_stderr s' = s_stderr s /\
  (s_compiler s' = s_compiler s \/ (s_compiler s = None /\ s_compiler s' = Some (Some ["cc"%string]))).
Proof. intros. apply history_clean. Qed.
(* But every compilation that is started costs an open descriptor and a directory in the current directory, and there is
   nothing else that does. *)
Theorem C110_descriptors_refuted : forall no_host use_instead literal_eval gencode h s,
  let s' := history no_host use_instead literal_eval gencode h s in
  exists commands made opened, s_log s' = s_log s ++ commands /\ s_made s' = s_made s ++ made /\ s_descriptors s' = s_descriptors s + opened /\
    length commands <= length made /\ length made <= opened /\ opened <= compilations h.
Proof.
  intros. destruct (history_leaves no_host use_instead literal_eval gencode h s) as (n & m & d & (A & B & C) & L1 & L2 & L3). exists n, m, d. auto 10.
Qed.

(* Once CUDA has been found and asked for its devices, a CUDA source is compiled by one command: nvcc with the base options,
   code for every device, and the caller's options; its object is loaded. *)
Theorem C110_compile : forall no_host use_instead literal_eval gencode w o arch stem s dir base info,
  prepared s dir base info -> willing w dir -> arch <> None \/ ci_devices info <> [] ->
  let tmp := w_mkdtemp w 2 in let obj := (chop (pjoin tmp stem) ++ ".o")%string in
  let command := nvcc_command gencode w dir base info tmp stem obj (match o with NoOptions => [] | MyOptions => s_options s end) in
  w_spawn w command = Ok tt ->
  exists s', compile_using_nvcc no_host use_instead literal_eval gencode w o arch stem ".cu" s = (w_load w obj, s') /\ s_log s' = s_log s ++ [command].
Proof.
  intros ? ? ? ? w o arch stem s dir base info P W A tmp obj command E.
  destruct (compile_main no_host use_instead literal_eval gencode w o arch stem s dir base info P W A) as (s' & F & L). fold tmp obj command in F, L. rewrite E in F. exists s'. auto.
Qed.
(* Errors of the compiler are not reported as such: raising a tuple is a TypeError. *)
Theorem C110_compile_error_refuted : forall no_host use_instead literal_eval gencode w o arch stem s dir base info,
  prepared s dir base info -> willing w dir -> arch <> None \/ ci_devices info <> [] ->
  let tmp := w_mkdtemp w 2 in let obj := (chop (pjoin tmp stem) ++ ".o")%string in
  w_spawn w (nvcc_command gencode w dir base info tmp stem obj (match o with NoOptions => [] | MyOptions => s_options s end)) = Raise CompileError ->
  fst (compile_using_nvcc no_host use_instead literal_eval gencode w o arch stem ".cu" s) = Raise TypeError.
Proof.
  intros ? ? ? ? w o arch stem s dir base info P W A tmp obj E.
  destruct (compile_main no_host use_instead literal_eval gencode w o arch stem s dir base info P W A) as (s' & F & L). fold tmp obj in F. rewrite E in F. rewrite F. reflexivity.
Qed.
(* In Python 3, where ast.literal_eval does not take bytes, this state is never reached: after any calls, no CUDA source
   is compiled and no command started for one. *)
Theorem C110_python3_refuted : forall no_host use_instead literal_eval gencode, (forall b, literal_eval b = Raise ValueError) ->
  forall h options w o arch stem, let s := history no_host use_instead literal_eval gencode h (imported options) in
  s_info s = None /\ exists e s', compile_using_nvcc no_host use_instead literal_eval gencode w o arch stem ".cu" s = (Raise e, s') /\ s_log s' = s_log s.
Proof. intros. split; [now apply never_info|now apply never_compiles]. Qed.
(* Nor is any compiled when NVCC is set, in any state. *)
Theorem C110_nvcc_variable_refuted : forall no_host use_instead literal_eval gencode w o arch stem s, w_nvcc w <> ""%string ->
  exists e, fst (compile_using_nvcc no_host use_instead literal_eval gencode w o arch stem ".cu" s) = Raise e.
Proof. exact nvcc_main. Qed.
(* The architecture that the caller names has no effect. *)
Theorem C110_architecture_refuted : forall no_host use_instead literal_eval gencode w o a a' stem ext s,
  compile_using_nvcc no_host use_instead literal_eval gencode w o (Some a) stem ext s = compile_using_nvcc no_host use_instead literal_eval gencode w o (Some a') stem ext s.
Proof. exact arch_main. Qed.
(* A list of options that is not empty grows with every compilation it is passed to. *)
Theorem C110_options_refuted : forall no_host use_instead literal_eval gencode h, Forall with_my_options h -> forall s,
  s_options (history no_host use_instead literal_eval gencode h s) = match s_options s with [] => [] | l => l ++ repeat "-cubin"%string (length h) end.
Proof. exact options_main. Qed.

(* Asking for the devices: the test program is compiled and run once; its answer is kept, errors leave nothing behind. *)
Theorem C110_devices : forall literal_eval w s dir, s_cuda_path s = Some dir -> dir <> "NOT_INITIALIZED"%string -> w_nvcc w = ""%string -> there w (pjoin dir "bin/nvcc") ->
  s_info s = None ->
  let out := pjoin (w_mkdtemp w 1) "test.out" in
  let command := [pjoin dir "bin/nvcc"; "-o"%string; out; pjoin (w_mkdtemp w 1) "test.cu"] in
  (forall e, w_nvcc_run w command = Raise e -> get_cuda_info literal_eval w s = (Raise e, s)) /\
  (forall done, w_nvcc_run w command = Ok done ->
     (p_code done <> 0%Z -> get_cuda_info literal_eval w s = (Raise RuntimeError, s)) /\
     (p_code done = 0%Z ->
        (forall e, w_stub_run w out = Raise e -> get_cuda_info literal_eval w s = (Raise PlainException, s)) /\
        (forall text, w_stub_run w out = Ok text ->
           (forall e, literal_eval text = Raise e -> get_cuda_info literal_eval w s = (Raise e, s)) /\
           (forall i, literal_eval text = Ok i -> get_cuda_info literal_eval w s = (Ok i, set_info (Some i) s))))).
Proof. exact asked. Qed.
Theorem C110_version : forall literal_eval w s i, s_info s = Some i ->
  get_cuda_info literal_eval w s = (Ok i, s) /\
  ((ci_version i < 8000)%Z -> get_cuda_version literal_eval w s = (Raise ValueError, s)) /\
  ((8000 <= ci_version i)%Z -> get_cuda_version literal_eval w s = (Ok (ci_version i), s)).
Proof. exact version_known. Qed.

(* The first run of lines that match is found, unless it ends with the last line. *)
Theorem C110_lines : forall (line groups : Type) (d : line) lines (regexs : list (line -> option groups)),
  (forall ms, match_output_lines d lines regexs = Some ms ->
     exists i, i + length regexs < length lines /\ run_matches regexs (skipn i lines) ms /\ forall i' ms', i' < i -> ~ run_matches regexs (skipn i' lines) ms') /\
  (match_output_lines d lines regexs = None -> forall i ms, i + length regexs < length lines -> ~ run_matches regexs (skipn i lines) ms).
Proof. intros line groups. exact lines_main. Qed.
Theorem C110_last_lines_refuted : forall (line groups : Type) (d : line) lines (regexs : list (line -> option groups)),
  (forall i ms, run_matches regexs (skipn i lines) ms -> i + length regexs = length lines) -> match_output_lines d lines regexs = None.
Proof. intros line groups. exact last_lines. Qed.

(* ---------- non-vacuity ---------- *)
Definition ex_world : world :=
  {| w_path := Some ["/opt/cuda/bin"%string]; w_cuda_path := ""; w_nvcc := ""; w_exists := fun p => String.eqb p "/opt/cuda/bin/nvcc"; w_above := fun _ => "/opt/cuda"%string;
     w_nvcc_run := fun _ => Ok {| p_code := 0; p_stderr := [] |}; w_stub_run := fun _ => Ok "text"%string; w_mkdtemp := fun _ => "/tmp/x"%string;
     w_write := Ok tt; w_dup := Ok tt; w_open := Ok tt; w_spawn := fun _ => Ok tt; w_load := fun p => Ok p; w_cupy := "/cupy" |}.
Definition ex_info : cuda_info := {| ci_version := 9000; ci_devices := [(6, 1); (7, 0)]%Z |}.
(* with a literal_eval that works, the state of C110_compile is reached from the start *)
Example C110_ex_prepared : let s := history (fun _ => None) (fun _ => None) (fun _ => Ok ex_info) (fun _ => "sm"%string) [(BaseOptions, ex_world); (CudaInfo, ex_world)] (imported ["-g"%string]) in
  prepared s "/opt/cuda" [] ex_info /\ willing ex_world "/opt/cuda" /\ chosen ex_world (Some "/opt/cuda"%string) /\
  fst (compile_using_nvcc (fun _ => None) (fun _ => None) (fun _ => Ok ex_info) (fun _ => "sm"%string) ex_world MyOptions None "kern" ".cu" s) = Ok "tmp/x/kern.o"%string.
Proof.
  cbv zeta. split; [|split; [|split; [|reflexivity]]].
  - unfold prepared. cbn. repeat split; discriminate.
  - unfold willing, there. cbn. repeat split. discriminate.
  - split; [intros [H _]; now destruct H|]. intros _. split; [reflexivity|]. intros N. exfalso. apply (N "/opt/cuda/bin/nvcc"%string); [left; reflexivity|]. split; [discriminate|reflexivity].
Qed.
(* the state of C110_devices *)
Example C110_ex_devices : let s := history (fun _ => None) (fun _ => None) (fun _ => Ok ex_info) (fun _ => "sm"%string) [(CudaPath, ex_world)] (imported []) in
  s_cuda_path s = Some "/opt/cuda"%string /\ s_info s = None /\ there ex_world (pjoin "/opt/cuda" "bin/nvcc") /\
  fst (get_cuda_info (fun _ => Ok ex_info) ex_world s) = Ok ex_info.
Proof. repeat split. discriminate. Qed.
(* two compilations: two descriptors, two directories, two more options *)
Example C110_ex_left : let s := history (fun _ => None) (fun _ => None) (fun _ => Ok ex_info) (fun _ => "sm"%string)
    [(Compile MyOptions (Some 61%Z) "a" ".cu", ex_world); (Compile MyOptions (Some 70%Z) "b" ".cu", ex_world)] (imported ["-g"%string]) in
  s_descriptors s = 2 /\ s_made s = ["tmp/x"; "tmp/x"]%string /\ s_options s = ["-g"; "-cubin"; "-cubin"]%string /\ length (s_log s) = 2.
Proof. repeat split. Qed.
(* a line 1 followed by a line 2: found in the middle, not at the end *)
Example C110_ex_lines : let rs := [fun x => if Nat.eqb x 1 then Some x else None; fun x => if Nat.eqb x 2 then Some x else None] in
  match_output_lines 0 [5; 1; 2; 0] rs = Some [1; 2] /\ match_output_lines 0 [5; 1; 2] rs = None /\ run_matches rs (skipn 1 [5; 1; 2]) [1; 2].
Proof. cbv zeta. repeat split. repeat constructor. Qed.

Print Assumptions C110_cuda_path.
Print Assumptions C110_cleaned_up.
Print Assumptions C110_descriptors_refuted.
Print Assumptions C110_compile.
Print Assumptions C110_compile_error_refuted.
Print Assumptions C110_python3_refuted.
Print Assumptions C110_nvcc_variable_refuted.
Print Assumptions C110_architecture_refuted.
Print Assumptions C110_options_refuted.
Print Assumptions C110_devices.
Print Assumptions C110_version.
Print Assumptions C110_lines.
Print Assumptions C110_last_lines_refuted.
(* the files named above: in a directory /d, the source is /d/stem.cu and the object d/stem.o, relative to the current directory *)
Theorem C110_files : forall d c f, c <> "/"%char ->
  pjoin (String "/" (d ++ String c "")) f = (String "/" d ++ String c (String "/" f))%string /\
  chop (pjoin (String "/" (d ++ String c "")) f) = (d ++ String c (String "/" f))%string /\
  pjoin (d ++ "/") f = (d ++ "/" ++ f)%string /\ pjoin "" f = f.
Proof.
  assert (E : forall d c, ends_with_slash (d ++ String c "") = Ascii.eqb c "/"%char).
  { induction d as [|x d IH]; intros c; [reflexivity|]. specialize (IH c). destruct d as [|y d]; [reflexivity|]. exact IH. }
  assert (A : forall a b c : string, ((a ++ b) ++ c = a ++ b ++ c)%string) by (induction a; intros; cbn; congruence).
  assert (P : forall d c f, c <> "/"%char -> pjoin (String "/" (d ++ String c "")) f = (String "/" d ++ String c (String "/" f))%string).
  { intros d c f H. unfold pjoin. cbn [String.eqb]. replace (ends_with_slash (String "/" (d ++ String c ""))) with (Ascii.eqb c "/"%char) by (symmetry; apply (E (String "/" d))).
    destruct (Ascii.eqb_spec c "/"%char); [contradiction|]. cbn. rewrite A. reflexivity. }
  intros d c f H. repeat apply conj.
  - apply P, H.
  - rewrite P by exact H. reflexivity.
  - unfold pjoin. replace (String.eqb (d ++ "/") "") with false by (destruct d; reflexivity). rewrite E. cbn. apply A.
  - reflexivity.
Qed.
Print Assumptions C110_files.
