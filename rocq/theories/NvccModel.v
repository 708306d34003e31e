(* Model of /repo/africanus/util/nvcc.py on Linux, with the parts of distutils that it calls (CCompiler.compile,
   CCompiler._setup_compile, UnixCCompiler._compile).  Everything outside of the process is an argument: a value of type
   world answers the questions of one call.  Left out: Windows and Darwin (the class _MSVCCompiler), log messages, the text
   of messages, failures of rmtree, of mkpath and of writing the test programs. *)
From Coq Require Import Ascii String.
From Verif Require Import Prelude.
Open Scope list_scope.
Open Scope nat_scope.

(* exceptions that Prelude does not have *)
Definition OSError : exn := UserExn 11.
Definition PlainException : exn := UserExn 12.
Definition CompileError : exn := UserExn 13.
Definition UnknownFileError : exn := UserExn 14.

(* os.path.join(p, f) of a relative f *)
Fixpoint ends_with_slash (p : string) : bool :=
  match p with EmptyString => false | String c EmptyString => Ascii.eqb c "/"%char | String _ q => ends_with_slash q end.
Definition pjoin (p f : string) : string := if String.eqb p "" then f else if ends_with_slash p then (p ++ f)%string else (p ++ "/" ++ f)%string.
(* base[os.path.isabs(base):], distutils/ccompiler.py, object_filenames *)
Definition chop (p : string) : string := match p with String c q => if Ascii.eqb c "/"%char then q else p | _ => p end.

(* what the dictionary printed by the program of lines 234-275 holds, as far as it is used *)
Record cuda_info : Type := { ci_version : Z; ci_devices : list (Z * Z) }.
(* a program that was run: return code and lines of stderr *)
Record ended : Type := { p_code : Z; p_stderr : list string }.

Record world : Type := {
  w_path : option (list string);        (* os.environ['PATH'], split; None if it is not set *)
  w_cuda_path : string;                 (* os.environ.get('CUDA_PATH', '') *)
  w_nvcc : string;                      (* os.environ.get('NVCC', ''); an empty value counts as none, line 107 *)
  w_exists : string -> bool;            (* os.path.exists of names that are not empty *)
  w_above : string -> string;           (* os.path.normpath(os.path.join(os.path.dirname(os.path.abspath(p)), '..')) *)
  w_nvcc_run : list string -> res ended;   (* subprocess.Popen and communicate *)
  w_stub_run : string -> res string;    (* subprocess.check_output, bytes *)
  w_mkdtemp : nat -> string;            (* the names of the directories made for the base options, the information, the compilation *)
  w_write : res unit;                   (* lines 481-482: writing of the source *)
  w_dup : res unit;                     (* os.dup *)
  w_open : res unit;                    (* open(dest_filename, 'w') *)
  w_spawn : list string -> res unit;    (* CCompiler.spawn; DistutilsExecError becomes CompileError *)
  w_load : string -> res string;        (* cp.cuda.function.Module().load_file *)
  w_cupy : string                       (* resource_filename("cupy", "core/include") *)
}.

(* the process: the globals of lines 57-59 and 420, the temporary directories that exist, where stderr leads to (None: where
   it led at the start), how many descriptors are open, the directories made in the current directory, the commands spawned by
   distutils, and the content of a list of options that belongs to the caller *)
Record proc : Type := {
  s_cuda_path : option string;
  s_base : option (list string);
  s_info : option cuda_info;
  s_compiler : option (option (list string));   (* compiler_so of the compiler, once there is one *)
  s_temp : list string;
  s_stderr : option string;
  s_descriptors : nat;
  s_made : list string;
  s_log : list (list string);
  s_options : list string
}.
Definition set_cuda_path x s := {| s_cuda_path := x; s_base := s_base s; s_info := s_info s; s_compiler := s_compiler s; s_temp := s_temp s;
  s_stderr := s_stderr s; s_descriptors := s_descriptors s; s_made := s_made s; s_log := s_log s; s_options := s_options s |}.
Definition set_base x s := {| s_cuda_path := s_cuda_path s; s_base := x; s_info := s_info s; s_compiler := s_compiler s; s_temp := s_temp s;
  s_stderr := s_stderr s; s_descriptors := s_descriptors s; s_made := s_made s; s_log := s_log s; s_options := s_options s |}.
Definition set_info x s := {| s_cuda_path := s_cuda_path s; s_base := s_base s; s_info := x; s_compiler := s_compiler s; s_temp := s_temp s;
  s_stderr := s_stderr s; s_descriptors := s_descriptors s; s_made := s_made s; s_log := s_log s; s_options := s_options s |}.
Definition set_compiler x s := {| s_cuda_path := s_cuda_path s; s_base := s_base s; s_info := s_info s; s_compiler := x; s_temp := s_temp s;
  s_stderr := s_stderr s; s_descriptors := s_descriptors s; s_made := s_made s; s_log := s_log s; s_options := s_options s |}.
Definition set_temp x s := {| s_cuda_path := s_cuda_path s; s_base := s_base s; s_info := s_info s; s_compiler := s_compiler s; s_temp := x;
  s_stderr := s_stderr s; s_descriptors := s_descriptors s; s_made := s_made s; s_log := s_log s; s_options := s_options s |}.
Definition set_stderr x s := {| s_cuda_path := s_cuda_path s; s_base := s_base s; s_info := s_info s; s_compiler := s_compiler s; s_temp := s_temp s;
  s_stderr := x; s_descriptors := s_descriptors s; s_made := s_made s; s_log := s_log s; s_options := s_options s |}.
Definition set_descriptors x s := {| s_cuda_path := s_cuda_path s; s_base := s_base s; s_info := s_info s; s_compiler := s_compiler s; s_temp := s_temp s;
  s_stderr := s_stderr s; s_descriptors := x; s_made := s_made s; s_log := s_log s; s_options := s_options s |}.
Definition set_made x s := {| s_cuda_path := s_cuda_path s; s_base := s_base s; s_info := s_info s; s_compiler := s_compiler s; s_temp := s_temp s;
  s_stderr := s_stderr s; s_descriptors := s_descriptors s; s_made := x; s_log := s_log s; s_options := s_options s |}.
Definition set_log x s := {| s_cuda_path := s_cuda_path s; s_base := s_base s; s_info := s_info s; s_compiler := s_compiler s; s_temp := s_temp s;
  s_stderr := s_stderr s; s_descriptors := s_descriptors s; s_made := s_made s; s_log := x; s_options := s_options s |}.
Definition set_options x s := {| s_cuda_path := s_cuda_path s; s_base := s_base s; s_info := s_info s; s_compiler := s_compiler s; s_temp := s_temp s;
  s_stderr := s_stderr s; s_descriptors := s_descriptors s; s_made := s_made s; s_log := s_log s; s_options := x |}.

(* statements: a result or an exception, and the process after it *)
Definition act (A : Type) : Type := proc -> res A * proc.
Definition give {A} (a : A) : act A := fun s => (Ok a, s).
Definition fail {A} (e : exn) : act A := fun s => (Raise e, s).
Definition ask {A} (r : res A) : act A := fun s => (r, s).
Definition seq {A B} (m : act A) (f : A -> act B) : act B :=
  fun s => let '(r, s1) := m s in match r with Ok a => f a s1 | Raise e => (Raise e, s1) end.
Notation "'act!' x <- m ; f" := (seq m (fun x => f)) (at level 200, x name, m at level 100, f at level 200).
Definition change_to (f : proc -> proc) : act unit := fun s => (Ok tt, f s).
Definition reading {A} (f : proc -> A) : act A := fun s => (Ok (f s), s).
(* try: m finally: last, for a last that does not raise *)
Definition at_last {A} (m : act A) (last : proc -> proc) : act A := fun s => let '(r, s1) := m s in (r, last s1).
(* try: m except e: handler *)
Definition on_error {A} (m : act A) (e : exn) (handler : act A) : act A :=
  fun s => let '(r, s1) := m s in
    match r, e with Raise (UserExn a), UserExn b => if Nat.eqb a b then handler s1 else (r, s1) | _, _ => (r, s1) end.
Fixpoint drop_one (x : string) (l : list string) : list string :=
  match l with [] => [] | y :: l' => if String.eqb x y then l' else y :: drop_one x l' end.

(* lines 36-46 search_on_path for ('nvcc', 'nvcc.exe') *)
Definition path_exists (w : world) (p : string) : bool := if String.eqb p "" then false else w_exists w p.
Definition get_path (w : world) : list string := match w_path w with Some l => l | None => [""%string] end.
Fixpoint first_existing (w : world) (l : list string) : option string :=
  match l with [] => None | f :: l' => if path_exists w f then Some f else first_existing w l' end.
Definition search_on_path (w : world) : option string :=
  first_existing w (flat_map (fun p => map (pjoin p) ["nvcc"%string; "nvcc.exe"%string]) (get_path w)).

Definition magic : string := "NOT_INITIALIZED".
Definition local_cuda : string := "/usr/local/cuda".
(* lines 71-102; the os.path.abspath of line 45 is in w_above *)
Definition get_cuda_path (w : world) : act (option string) := fun s =>
  match s_cuda_path s with
  | Some p => if String.eqb p magic then
      let cuda_path_default := match search_on_path w with None => None | Some nvcc_path => Some (w_above w nvcc_path) end in
      let p' := if path_exists w (w_cuda_path w) then Some (w_cuda_path w)
                else match cuda_path_default with
                     | Some d => Some d
                     | None => if path_exists w local_cuda then Some local_cuda else None
                     end in
      (Ok p', set_cuda_path p' s)
    else (Ok (Some p), s)
  | None => (Ok None, s)
  end.

(* lines 105-123; line 108: the package distutils has no split_quoted (distutils.util has) *)
Definition get_nvcc_path (w : world) : act (option (list string)) :=
  if negb (String.eqb (w_nvcc w) "") then fail AttributeErrorExn else
  act! cuda_path <- get_cuda_path w;
  match cuda_path with
  | None => give None
  | Some p => let nvcc_path := pjoin p "bin/nvcc" in give (if path_exists w nvcc_path then Some [nvcc_path] else None)
  end.

(* lines 126-157 get_compiler_setting: include_dirs.  library_dirs are not used and there are no macros on Linux. *)
Definition include_dirs (w : world) : act (list string) :=
  act! cuda_path <- get_cuda_path w;
  give (match cuda_path with Some p => if String.eqb p "" then [] else [pjoin p "include"] | None => [] end).

(* lines 160-179; a regular expression is a function that gives its groups if a line matches *)
Section Lines.
  Context {line groups : Type} (dline : line).
  Fixpoint match_from (regexs : list (line -> option groups)) (lines : list line) (matches : list groups) : option (list groups) :=
    match regexs with
    | [] => Some matches
    | r :: regexs' => match r (hd dline lines) with None => None | Some m => match_from regexs' (tl lines) (matches ++ [m]) end
    end.
  Fixpoint match_loop (k i : nat) (regexs : list (line -> option groups)) (lines : list line) : option (list groups) :=
    match k with
    | O => None
    | S k' => match match_from regexs (skipn i lines) [] with Some ms => Some ms | None => match_loop k' (S i) regexs lines end
    end.
  Definition match_output_lines (lines : list line) (regexs : list (line -> option groups)) : option (list groups) :=
    if Nat.ltb (length lines) (length regexs) then None else match_loop (length lines - length regexs) 0 regexs lines.
End Lines.

(* lines 62-68 *)
Definition tempdir {A} (name : string) (body : act A) : act A :=
  act! _ <- change_to (fun s => set_temp (name :: s_temp s) s);
  at_last body (fun s => set_temp (drop_one name (s_temp s)) s).
(* None + [...] *)
Definition concat_none (l : option (list string)) (r : list string) : res (list string) :=
  match l with None => Raise TypeError | Some l => Ok (l ++ r) end.

Section Python.
  (* the two regular expressions of lines 214-216: whether a line reports the missing host compiler, and the words of the
     options named in the next line *)
  Context (no_host : string -> option (list string)) (use_instead : string -> option (list string)).
  (* ast.literal_eval of the bytes that the stub program printed *)
  Context (literal_eval : string -> res cuda_info).

  (* lines 192-228 *)
  Definition get_base_options_ (w : world) : act (list string) :=
    act! nvcc_path <- get_nvcc_path w;
    let temp_dir := w_mkdtemp w 0 in
    tempdir temp_dir
      (act! command <- ask (concat_none nvcc_path ["-o"%string; pjoin temp_dir "test.out"; pjoin temp_dir "test.cu"]);
       act! done <- ask (w_nvcc_run w command);
       if Z.eqb (p_code done) 0 then give []
       else match match_output_lines ""%string (p_stderr done) [no_host; use_instead] with
            | Some [_; opts] => give opts
            | _ => fail RuntimeError
            end).
  (* lines 182-189 *)
  Definition get_compiler_base_options (w : world) : act (list string) :=
    act! cached <- reading s_base;
    match cached with
    | Some o => give o
    | None => act! o <- get_base_options_ w; act! _ <- change_to (set_base (Some o)); give o
    end.

  (* lines 231-302 *)
  Definition get_cuda_info_ (w : world) : act cuda_info :=
    act! nvcc_path <- get_nvcc_path w;
    let temp_dir := w_mkdtemp w 1 in
    tempdir temp_dir
      (let test_out_path := pjoin temp_dir "test.out" in
       act! command <- ask (concat_none nvcc_path ["-o"%string; test_out_path; pjoin temp_dir "test.cu"]);
       act! done <- ask (w_nvcc_run w command);
       if negb (Z.eqb (p_code done) 0) then fail RuntimeError else
       match w_stub_run w test_out_path with
       | Raise _ => fail PlainException
       | Ok out => ask (literal_eval out)
       end).
  (* lines 305-311 *)
  Definition get_cuda_info (w : world) : act cuda_info :=
    act! cached <- reading s_info;
    match cached with
    | Some i => give i
    | None => act! i <- get_cuda_info_ w; act! _ <- change_to (set_info (Some i)); give i
    end.
  (* lines 318-326 *)
  Definition get_cuda_version (w : world) : act Z :=
    act! i <- get_cuda_info w;
    if Z.ltb (ci_version i) 8000 then fail ValueError else give (ci_version i).
  (* lines 329-332; gencode stands for the formatted text "--generate-code=arch=compute_{a},code=sm_{a}" *)
  Context (gencode : Z -> string).
  Definition architecture (d : Z * Z) : Z := (fst d * 10 + snd d)%Z.
  Definition get_gencode_options (w : world) : act (list string) :=
    act! i <- get_cuda_info w; give (map (fun d => gencode (architecture d)) (ci_devices i)).

  (* distutils/unixccompiler.py, UnixCCompiler._compile *)
  Definition unix_compile (w : world) (obj src : string) (cc_args extra_postargs : list string) : act unit :=
    act! compiler <- reading s_compiler;
    act! command <- ask (concat_none (match compiler with Some so => so | None => None end) (cc_args ++ [src; "-o"%string; obj] ++ extra_postargs));
    act! _ <- change_to (fun s => set_log (s_log s ++ [command]) s);
    ask (w_spawn w command).
  (* lines 339-361 *)
  Definition compile_one (w : world) (obj src ext : string) (cc_args extra_postargs : list string) : act unit :=
    if negb (String.eqb ext ".cu") then unix_compile w obj src cc_args extra_postargs else
    act! old <- reading s_compiler;
    at_last
      (act! nvcc_path <- get_nvcc_path w;
       act! base_opts <- get_compiler_base_options w;
       act! _ <- change_to (set_compiler (Some nvcc_path));
       act! _ <- get_cuda_version w;
       act! gencodes <- get_gencode_options w;
       let postargs := gencodes ++ ["-O2"%string; "--compiler-options=""-fPIC"""%string] ++ extra_postargs in
       unix_compile w obj src (base_opts ++ cc_args) postargs)
      (set_compiler old).
  (* the extensions of lines 336-337 *)
  Definition known (ext : string) : bool :=
    existsb (String.eqb ext) [".c"; ".C"; ".cc"; ".cxx"; ".cpp"; ".m"; ".cu"]%string.
  (* distutils/ccompiler.py, CCompiler.compile for one source stem ++ ext in the directory dir *)
  Definition cc_compile (w : world) (dir stem ext : string) (includes extra_postargs : list string) : act (list string) :=
    if negb (known ext) then fail UnknownFileError else
    let src := (pjoin dir stem ++ ext)%string in
    let obj := (chop (pjoin dir stem) ++ ".o")%string in
    act! _ <- change_to (fun s => set_made (s_made s ++ [chop dir]) s);
    let cc_args := map (fun d => ("-I" ++ d)%string) includes ++ ["-c"%string] in
    act! _ <- compile_one w obj src ext cc_args extra_postargs;
    give [obj].
  (* lines 423-432 *)
  Definition get_compiler : act unit :=
    act! c <- reading s_compiler;
    match c with Some _ => give tt | None => change_to (set_compiler (Some (Some ["cc"%string]))) end.

  (* lines 435-457: if os.dup or open fails, the names of the finally block are not bound.  The duplicate is never closed. *)
  Definition redirected {A} (w : world) (dest : string) (body : act A) : act A :=
    match w_dup w with
    | Raise _ => fail NameError
    | Ok _ =>
        act! _ <- change_to (fun s => set_descriptors (S (s_descriptors s)) s);
        match w_open w with
        | Raise _ => fail NameError
        | Ok _ =>
            act! before <- reading s_stderr;
            act! _ <- change_to (fun s => set_descriptors (S (s_descriptors s)) (set_stderr (Some dest) s));
            at_last body (fun s => set_descriptors (pred (s_descriptors s)) (set_stderr before s))
        end
    end.

  (* the argument options: None, or a list of the caller *)
  Inductive options_arg : Type := NoOptions | MyOptions.
  (* lines 460-512; the file name is stem ++ ext as os.path.splitext divides it.  Lines 492-505: whatever distutils reports, raise (ex, None, tb) raises a
     TypeError, because exceptions must derive from BaseException.  Line 507: distutils returns one object for one source. *)
  Definition compile_using_nvcc (w : world) (options : options_arg) (arch : option Z) (stem ext : string) : act string :=
    act! arch <- (match arch with
      | Some a => give a
      | None => act! i <- get_cuda_info w;
          match map architecture (ci_devices i) with [] => fail ValueError | a :: l => give (fold_left Z.min l a) end
      end);
    act! _ <- get_compiler;
    act! include_dirs <- include_dirs w;
    let arch := gencode arch in
    act! mine <- reading s_options;
    act! options <- (match options, mine with
      | NoOptions, _ | MyOptions, [] => give ["-cubin"%string]
      | MyOptions, _ :: _ => act! _ <- change_to (set_options (mine ++ ["-cubin"%string])); give (mine ++ ["-cubin"%string])
      end);
    let includes := include_dirs ++ [w_cupy w] in
    let tmpdir := w_mkdtemp w 2 in
    tempdir tmpdir
      (act! _ <- ask (w_write w);
       act! objects <- on_error
         (redirected w (pjoin tmpdir "stderr.txt") (cc_compile w tmpdir stem ext includes options))
         CompileError (fail TypeError);
       match objects with
       | [obj] => ask (w_load w obj)
       | _ => fail AssertionError
       end).

  (* a call of one of the functions of the module, in the world as it is at that time *)
  Inductive call : Type :=
  | CudaPath | NvccPath | BaseOptions | CudaInfo | CudaVersion | Gencodes | GetCompiler
  | Compile (options : options_arg) (arch : option Z) (stem ext : string).
  Definition ran {A} (m : act A) (s : proc) : res unit * proc := let '(r, s1) := m s in (match r with Ok _ => Ok tt | Raise e => Raise e end, s1).
  Definition perform (c : call) (w : world) (s : proc) : res unit * proc :=
    match c with
    | CudaPath => ran (get_cuda_path w) s
    | NvccPath => ran (get_nvcc_path w) s
    | BaseOptions => ran (get_compiler_base_options w) s
    | CudaInfo => ran (get_cuda_info w) s
    | CudaVersion => ran (get_cuda_version w) s
    | Gencodes => ran (get_gencode_options w) s
    | GetCompiler => ran get_compiler s
    | Compile o a stem ext => ran (compile_using_nvcc w o a stem ext) s
    end.
  (* a program that makes these calls, and goes on whatever they raise *)
  Fixpoint history (l : list (call * world)) (s : proc) : proc :=
    match l with [] => s | (c, w) :: l' => history l' (snd (perform c w s)) end.
End Python.
(* at import, lines 57-59 and 420; options is the caller's list *)
Definition imported (options : list string) : proc :=
  {| s_cuda_path := Some magic; s_base := None; s_info := None; s_compiler := None; s_temp := []; s_stderr := None;
     s_descriptors := 0; s_made := []; s_log := []; s_options := options |}.
