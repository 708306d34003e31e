(* What a user of cub_dir() and trove_dir() relies on. *)
From Coq Require Import String.
From Verif Require Import Prelude InstallModel.
Open Scope nat_scope.
Open Scope list_scope.

Section Spec.
  Context {B : Type}.
  Variables (good : B -> bool) (unzip : B -> option tree) (installed : option tree -> bool) (zip_dir : string) (same_fs : bool).

  (* d is the unpacked form of an archive with the expected hash, all files of it and no other *)
  Definition complete (d : option tree) : Prop :=
    exists b tr, good b = true /\ unzip b = Some tr /\ d = Some tr.
  (* every file of d comes from the directory d0 or from an archive with the expected hash *)
  Definition genuine (d0 d : option tree) : Prop :=
    forall t p x, d = Some t -> t p = Some x ->
      (exists t0, d0 = Some t0 /\ t0 p = Some x) \/
      (exists b tr p', good b = true /\ unzip b = Some tr /\ tr p' = Some x /\ (p = p' \/ p = zip_dir :: p')).
  (* a check that removing files never turns from no to yes, and that does not look below zip_dir *)
  Definition honest_check : Prop :=
    installed None = false /\
    (forall t t', part_of t' t -> installed (Some t') = true -> installed (Some t) = true) /\
    (forall t tr, installed (Some (nested zip_dir t tr)) = installed (Some t)).
  (* thread t of process p has received the directory / holds the lock and installs *)
  Definition returned (s : @state B) (p t : nat) (r : res unit) : Prop :=
    exists q, procs s p = Some q /\ pcs q t = Done r.
  Definition installing (c : @pc B) : Prop :=
    match c with Idle | Outer | Wait | Inner | Release _ | Done _ => False | _ => True end.
  Definition holds_lock (c : @pc B) : Prop :=
    match c with Idle | Outer | Wait | Done _ => False | _ => True end.
  Definition nobody_runs (s : @state B) : Prop := forall p, procs s p = None.
  Definition can_move (s : @state B) (p t : nat) : Prop :=
    exists q x, procs s p = Some q /\ tstep good unzip installed zip_dir same_fs t (disk s, flag q, lock q, pcs q t) x.
End Spec.

(* the directory has the file p *)
Definition has_file (d : option tree) (p : path) (l : file) : Prop := exists t, d = Some t /\ t p = Some l.
(* s occurs in line *)
Definition occurs (s line : string) : Prop := exists before after, line = String.append before (String.append s after).

(* the directory without one file *)
Definition path_eq : forall p p' : path, {p = p'} + {p <> p'} := list_eq_dec String.string_dec.
Definition without (p0 : path) (t : tree) : tree := fun p => if path_eq p p0 then None else t p.

(* two archives: true has the expected hash.  They differ in one header. *)
Definition ex_header : path := ["cub"; "util_ptx.cuh"]%string.
Definition ex_tree (b : bool) : tree := fun p =>
  if path_eq p readme then Some ["CUB"; "Current release: v1.8.0 (02/16/2018)"]%string
  else if path_eq p cub_header then Some ["#include util_ptx.cuh"]%string
  else if path_eq p ex_header then Some [if b then "#pragma once" else "int x = system(0);"]%string
  else None.
Definition ex_good (b : bool) : bool := b.
Definition ex_unzip (b : bool) : option tree := Some (ex_tree b).
Definition ex_disk : @fs bool := {| archive := None; target := None |}.
