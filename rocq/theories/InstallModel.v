(* Model of /repo/africanus/util/cub.py and trove.py: the installation of a header library on first use, as a relation of single
   steps of threads of processes that share a file system.  Processes may stop at any step.  The network, the disk and the zip
   library may fail at any step that uses them, and a download may deliver anything.
   Bytes of an archive are abstract; a file of the directory is its list of lines.  Other programs do not touch the files. *)
From Coq Require Import String.
From Verif Require Import Prelude.
Open Scope nat_scope.
Open Scope list_scope.

Definition path : Type := list string.
Definition file : Type := list string.                     (* its lines *)
Definition tree : Type := path -> option file.
Definition empty_tree : tree := fun _ => None.
(* some of the files of t *)
Definition part_of (t' t : tree) : Prop := forall p, t' p = t p \/ t' p = None.

(* line.find(s) != -1 *)
Fixpoint contains (s line : string) : bool :=
  String.prefix s line || match line with EmptyString => false | String _ rest => contains s rest end.
Definition is_file (d : option tree) (p : path) : bool :=
  match d with Some t => match t p with Some _ => true | None => false end | None => false end.
Definition lines_of (d : option tree) (p : path) : file :=
  match d with Some t => match t p with Some l => l | None => [] end | None => [] end.
(* cub.py:51-76 with the names of lines 23, 27 and 28 *)
Definition cub_header : path := ["cub"; "cub.cuh"]%string.
Definition readme : path := ["README.md"]%string.
Definition cub_version : string := "Current release: v1.8.0 (02/16/2018)".
Definition is_cub_installed (d : option tree) : bool :=
  is_file d cub_header && is_file d readme && existsb (contains cub_version) (lines_of d readme).
(* trove.py:51-59 *)
Definition is_trove_installed (d : option tree) : bool := is_file d readme.
Definition cub_zip_dir : string := "cub-1.8.0".            (* cub.py:25 *)
Definition trove_zip_dir : string := "trove-master".       (* trove.py:25 *)
(* shutil.move into a directory that exists puts the source below it *)
Definition nested (zip_dir : string) (t tr : tree) : tree := fun p =>
  match p with d :: rest => if String.eqb d zip_dir then tr rest else t p | [] => t p end.

Definition install_exn : exn := UserExn 9.                 (* InstallCubException, InstallTroveException *)
Definition io_exn : exn := UserExn 10.                     (* URLError, OSError, BadZipFile *)

Section Library.
  (* B: bytes of an archive.  good: its hash is the expected one.  unzip: the files below zip_dir.  same_fs: the temporary directory
     and the target are on one file system, so that shutil.move is a rename. *)
  Context {B : Type}.
  Variables (good : B -> bool) (unzip : B -> option tree) (installed : option tree -> bool) (zip_dir : string) (same_fs : bool).

  (* where a thread is in cub_dir (cub.py:143-153) and _install_cub (79-133); trove_dir (trove.py:124-134) and _install_trove (62-115) are the same *)
  Inductive pc : Type :=
  | Idle
  | Outer                       (* 146: reads the flag *)
  | Wait                        (* 147: waits for the lock *)
  | Inner                       (* 149: reads the flag, lock held *)
  | Look                        (* 85-87 *)
  | Open                        (* 40-45: urlopen, makedirs, open *)
  | Write                       (* 46 *)
  | Hash                        (* 48, 93-100 *)
  | Unzip                       (* 103 *)
  | Clear (b : B)               (* 106: rmtree, ignore_errors *)
  | Tmp (b : B)                 (* 113 *)
  | Extract (b : B)             (* 114 *)
  | Move (tr : tree)            (* 119 *)
  | Copy (tr : tree)            (* 119, across file systems *)
  | Check                       (* 129-133 *)
  | SetFlag                     (* 151 *)
  | Release (r : res unit)      (* end of with *)
  | Done (r : res unit).        (* 153, or the exception *)

  Record fs : Type := { archive : option B; target : option tree }.
  Record proc : Type := { flag : bool; lock : option nat; pcs : nat -> pc }.
  Record state : Type := { disk : fs; procs : nat -> option proc }.
  Definition set_archive (f : fs) (b : B) : fs := {| archive := Some b; target := target f |}.
  Definition set_target (f : fs) (d : option tree) : fs := {| archive := archive f; target := d |}.

  (* what rmtree may leave *)
  Definition removed (d d' : option tree) : Prop :=
    d' = None \/ exists t t', d = Some t /\ d' = Some t' /\ part_of t' t.

  (* one step of thread t; fails: a step that the network, disk or zip library makes fail *)
  Inductive tstep (t : nat) : fs * bool * option nat * pc -> fs * bool * option nat * pc -> Prop :=
  | t_call f g l : tstep t (f, g, l, Idle) (f, g, l, Outer)
  | t_outer_yes f l : tstep t (f, true, l, Outer) (f, true, l, Done (Ok tt))
  | t_outer_no f l : tstep t (f, false, l, Outer) (f, false, l, Wait)
  | t_acquire f g : tstep t (f, g, None, Wait) (f, g, Some t, Inner)
  | t_inner_yes f l : tstep t (f, true, l, Inner) (f, true, l, Release (Ok tt))
  | t_inner_no f l : tstep t (f, false, l, Inner) (f, false, l, Look)
  | t_look_hit f g l b : archive f = Some b -> good b = true -> tstep t (f, g, l, Look) (f, g, l, Unzip)
  | t_look_miss f g l : (forall b, archive f = Some b -> good b = false) -> tstep t (f, g, l, Look) (f, g, l, Open)
  | t_open f g l b : tstep t (f, g, l, Open) (set_archive f b, g, l, Write)
  | t_open_fails f g l : tstep t (f, g, l, Open) (f, g, l, Release (Raise io_exn))
  | t_write f g l b : tstep t (f, g, l, Write) (set_archive f b, g, l, Write)
  | t_write_fails f g l : tstep t (f, g, l, Write) (f, g, l, Release (Raise io_exn))
  | t_write_end f g l : tstep t (f, g, l, Write) (f, g, l, Hash)
  | t_hash_ok f g l b : archive f = Some b -> good b = true -> tstep t (f, g, l, Hash) (f, g, l, Unzip)
  | t_hash_bad f g l b : archive f = Some b -> good b = false -> tstep t (f, g, l, Hash) (f, g, l, Release (Raise install_exn))
  | t_hash_fails f g l : tstep t (f, g, l, Hash) (f, g, l, Release (Raise io_exn))
  | t_unzip f g l b : archive f = Some b -> tstep t (f, g, l, Unzip) (f, g, l, Clear b)
  | t_unzip_fails f g l : tstep t (f, g, l, Unzip) (f, g, l, Release (Raise io_exn))
  | t_clear f g l b d : removed (target f) d -> tstep t (f, g, l, Clear b) (set_target f d, g, l, Clear b)
  | t_clear_end f g l b : tstep t (f, g, l, Clear b) (f, g, l, Tmp b)
  | t_tmp f g l b : tstep t (f, g, l, Tmp b) (f, g, l, Extract b)
  (* tmpdir is not bound in the finally clause (cub.py:123-124) *)
  | t_tmp_fails f g l b : tstep t (f, g, l, Tmp b) (f, g, l, Release (Raise NameError))
  | t_extract f g l b tr : unzip b = Some tr -> tstep t (f, g, l, Extract b) (f, g, l, Move tr)
  | t_extract_fails f g l b : tstep t (f, g, l, Extract b) (f, g, l, Release (Raise install_exn))
  | t_rename f g l tr : target f = None -> same_fs = true ->
      tstep t (f, g, l, Move tr) (set_target f (Some tr), g, l, Check)
  | t_copy_start f g l tr : target f = None -> same_fs = false ->
      tstep t (f, g, l, Move tr) (set_target f (Some empty_tree), g, l, Copy tr)
  | t_copy f g l tr d d' : target f = Some d -> (forall p, d' p = d p \/ d' p = tr p) ->
      tstep t (f, g, l, Copy tr) (set_target f (Some d'), g, l, Copy tr)
  | t_copy_end f g l tr d : target f = Some d -> (forall p, tr p <> None -> d p = tr p) ->
      tstep t (f, g, l, Copy tr) (f, g, l, Check)
  | t_copy_fails f g l tr : tstep t (f, g, l, Copy tr) (f, g, l, Release (Raise install_exn))
  | t_nested f g l tr d : target f = Some d ->
      tstep t (f, g, l, Move tr) (set_target f (Some (nested zip_dir d tr)), g, l, Check)
  | t_move_fails f g l tr : tstep t (f, g, l, Move tr) (f, g, l, Release (Raise install_exn))
  | t_check_ok f g l : installed (target f) = true -> tstep t (f, g, l, Check) (f, g, l, SetFlag)
  | t_check_bad f g l : installed (target f) = false -> tstep t (f, g, l, Check) (f, g, l, Release (Raise install_exn))
  | t_set f g l : tstep t (f, g, l, SetFlag) (f, true, l, Release (Ok tt))
  | t_release f g l r : tstep t (f, g, l, Release r) (f, g, None, Done r)
  | t_again f g l r : tstep t (f, g, l, Done r) (f, g, l, Idle).

  Definition set_proc (s : state) (d : fs) (p : nat) (q : option proc) : state :=
    {| disk := d; procs := fun p' => if Nat.eqb p' p then q else procs s p' |}.
  Definition set_pc (q : nat -> pc) (t : nat) (c : pc) : nat -> pc := fun t' => if Nat.eqb t' t then c else q t'.

  (* solo: a process starts only when no other runs.  The flag is set on import (cub.py:136-140). *)
  Inductive step (solo : bool) (s : state) : state -> Prop :=
  | s_start p : procs s p = None -> (solo = true -> forall p', procs s p' = None) ->
      step solo s (set_proc s (disk s) p (Some {| flag := installed (target (disk s)); lock := None; pcs := fun _ => Idle |}))
  | s_stop p q : procs s p = Some q -> step solo s (set_proc s (disk s) p None)
  | s_thread p q t f' g' l' c' : procs s p = Some q -> tstep t (disk s, flag q, lock q, pcs q t) (f', g', l', c') ->
      step solo s (set_proc s f' p (Some {| flag := g'; lock := l'; pcs := set_pc (pcs q) t c' |})).
  Inductive run (solo : bool) (s : state) : state -> Prop :=
  | run_none : run solo s s
  | run_step s' s'' : run solo s s' -> step solo s' s'' -> run solo s s''.
  Definition nobody (d : fs) : state := {| disk := d; procs := fun _ => None |}.
End Library.
