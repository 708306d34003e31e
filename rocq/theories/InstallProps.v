(* C97: cub_dir() and trove_dir() return a directory only when the library is in it.  All schedules of threads, all points at which a
   process may stop, all failures of network and disk, all contents of the disk at the start. *)
From Coq Require Import String Lia.
From Verif Require Import Prelude InstallModel InstallSpec InstallProofs InstallProofs2 InstallProofs3.
Open Scope nat_scope.
Open Scope list_scope.

(* One process at a time: when a call has returned, the check of the installation holds. *)
Theorem C97_returned : forall B (good : B -> bool) unzip installed zip_dir same_fs d s p t,
  run good unzip installed zip_dir same_fs true (nobody d) s -> returned s p t (Ok tt) -> installed (target (disk s)) = true.
Proof. exact @returned_installed. Qed.

(* For cub: the header is there and a line of README.md names the version.  For trove: README.md is there. *)
Theorem C97_returned_cub : forall B (good : B -> bool) unzip same_fs d s p t,
  run good unzip is_cub_installed cub_zip_dir same_fs true (nobody d) s -> returned s p t (Ok tt) ->
  (exists l, has_file (target (disk s)) ["cub"; "cub.cuh"]%string l) /\
  (exists l line, has_file (target (disk s)) ["README.md"]%string l /\ In line l /\ occurs "Current release: v1.8.0 (02/16/2018)" line).
Proof. intros B good unzip same_fs d s p t R E. apply cub_check. exact (returned_installed _ _ _ _ _ _ _ _ _ R E). Qed.
Theorem C97_returned_trove : forall B (good : B -> bool) unzip same_fs d s p t,
  run good unzip is_trove_installed trove_zip_dir same_fs true (nobody d) s -> returned s p t (Ok tt) ->
  exists l, has_file (target (disk s)) ["README.md"]%string l.
Proof. intros B good unzip same_fs d s p t R E. apply trove_check. exact (returned_installed _ _ _ _ _ _ _ _ _ R E). Qed.
(* A directory that has these files is taken for installed: nothing is downloaded or written and no call fails, for any number of
   processes. *)
Theorem C97_present_cub : forall B (good : B -> bool) unzip same_fs solo d s l l' line,
  has_file (target d) ["cub"; "cub.cuh"]%string l -> has_file (target d) ["README.md"]%string l' -> In line l' ->
  occurs "Current release: v1.8.0 (02/16/2018)" line ->
  run good unzip is_cub_installed cub_zip_dir same_fs solo (nobody d) s ->
  disk s = d /\ forall p t r, returned s p t r -> r = Ok tt.
Proof.
  intros B good unzip same_fs solo d s l l' line H H' I O R. apply (present_lemma B good unzip is_cub_installed cub_zip_dir same_fs solo d s); [|exact R].
  apply cub_check. split; [exists l; exact H | exists l', line; auto].
Qed.
Theorem C97_present_trove : forall B (good : B -> bool) unzip same_fs solo d s l,
  has_file (target d) ["README.md"]%string l ->
  run good unzip is_trove_installed trove_zip_dir same_fs solo (nobody d) s ->
  disk s = d /\ forall p t r, returned s p t r -> r = Ok tt.
Proof.
  intros B good unzip same_fs solo d s l H R. apply (present_lemma B good unzip is_trove_installed trove_zip_dir same_fs solo d s); [|exact R].
  apply trove_check. exists l; exact H.
Qed.

(* From then on the directory never changes, whatever threads call and processes start or stop. *)
Theorem C97_kept : forall B (good : B -> bool) unzip installed zip_dir same_fs d s p t s',
  run good unzip installed zip_dir same_fs true (nobody d) s -> returned s p t (Ok tt) ->
  run good unzip installed zip_dir same_fs true s s' -> target (disk s') = target (disk s).
Proof. exact @returned_stays. Qed.

(* Every file of the directory comes from an archive with the expected hash, or was there before. *)
Theorem C97_verified : forall B (good : B -> bool) unzip installed zip_dir same_fs d s,
  run good unzip installed zip_dir same_fs true (nobody d) s -> genuine good unzip zip_dir (target d) (target (disk s)).
Proof. exact @genuine_lemma. Qed.

(* As long as no archive with the expected hash is delivered the directory is not touched and no call returns, unless the
   library was installed.  Any number of processes. *)
Theorem C97_bad_downloads : forall B (good : B -> bool) unzip installed zip_dir same_fs solo d s,
  (forall b, good b = false) -> run good unzip installed zip_dir same_fs solo (nobody d) s ->
  target (disk s) = target d /\ forall p t, returned s p t (Ok tt) -> installed (target d) = true.
Proof.
  intros B good unzip installed zip_dir same_fs solo d s Bad R.
  destruct (bad_lemma good unzip installed zip_dir same_fs Bad solo d s R) as (T & P). split; [exact T |].
  intros p t (q & E & C). destruct (P _ _ E) as (_ & X). apply (X t). right. exact C.
Qed.

(* The lock is held by exactly the thread that is inside, also after exceptions, and no thread is stuck: it can go on or waits for
   one that can. *)
Theorem C97_lock : forall B (good : B -> bool) unzip installed zip_dir same_fs solo d s p q t,
  run good unzip installed zip_dir same_fs solo (nobody d) s -> procs s p = Some q ->
  (lock q = Some t <-> holds_lock (pcs q t)) /\
  (can_move good unzip installed zip_dir same_fs s p t \/
   exists t', lock q = Some t' /\ t' <> t /\ can_move good unzip installed zip_dir same_fs s p t').
Proof.
  intros B good unzip installed zip_dir same_fs solo d s p q t R E. split;
    [exact (lock_lemma _ _ _ _ _ _ _ _ _ _ _ R E) | exact (progress_lemma _ _ _ _ _ _ _ _ _ _ _ R E)].
Qed.

(* Temporary directory and target on one file system: whenever the check holds, the directory is a complete unpacked archive
   or the directory of the start.  So a process may stop at any step. *)
Theorem C97_complete_cub : forall B (good : B -> bool) unzip d s,
  run good unzip is_cub_installed cub_zip_dir true true (nobody d) s -> is_cub_installed (target (disk s)) = true ->
  complete good unzip (target (disk s)) \/ target (disk s) = target d.
Proof. intros B good unzip d s. exact (whole_lemma good unzip is_cub_installed cub_zip_dir true eq_refl cub_honest d s). Qed.
Theorem C97_complete_trove : forall B (good : B -> bool) unzip d s,
  run good unzip is_trove_installed trove_zip_dir true true (nobody d) s -> is_trove_installed (target (disk s)) = true ->
  complete good unzip (target (disk s)) \/ target (disk s) = target d.
Proof. intros B good unzip d s. exact (whole_lemma good unzip is_trove_installed trove_zip_dir true eq_refl trove_honest d s). Qed.

(* After a stop at any step, from any contents of the disk, a later call can return: what it finds installed, or a complete
   directory. *)
Theorem C97_recovery : forall B (good : B -> bool) unzip installed zip_dir same_fs,
  (exists b, good b = true) -> (forall b, good b = true -> exists tr, unzip b = Some tr /\ installed (Some tr) = true) ->
  forall s, nobody_runs s -> exists s', run good unzip installed zip_dir same_fs true s s' /\ returned s' 0 0 (Ok tt) /\
    (if installed (target (disk s)) then target (disk s') = target (disk s) else complete good unzip (target (disk s'))).
Proof. exact @recover_lemma. Qed.

(* Two file systems: a process that stops while the files are copied leaves a directory that the next process takes for
   installed.  Every file but the two that are looked at may be missing; for trove every file but README.md. *)
Theorem C97_interrupted_cub_refuted : forall B (good : B -> bool) unzip b tr p0,
  good b = true -> unzip b = Some tr -> is_cub_installed (Some tr) = true -> p0 <> cub_header -> p0 <> readme ->
  exists s, run good unzip is_cub_installed cub_zip_dir false true (nobody {| archive := None; target := None |}) s /\
            returned s 1 0 (Ok tt) /\ target (disk s) = Some (without p0 tr).
Proof.
  intros B good unzip b tr p0 G U I N1 N2. apply (interrupted_lemma good unzip is_cub_installed cub_zip_dir b tr); auto.
  - apply without_part.
  - rewrite without_cub; assumption.
Qed.
Theorem C97_interrupted_trove_refuted : forall B (good : B -> bool) unzip b tr p0,
  good b = true -> unzip b = Some tr -> is_trove_installed (Some tr) = true -> p0 <> readme ->
  exists s, run good unzip is_trove_installed trove_zip_dir false true (nobody {| archive := None; target := None |}) s /\
            returned s 1 0 (Ok tt) /\ target (disk s) = Some (without p0 tr).
Proof.
  intros B good unzip b tr p0 G U I N1. apply (interrupted_lemma good unzip is_trove_installed trove_zip_dir b tr); auto.
  - apply without_part.
  - rewrite without_trove; assumption.
Qed.

(* Two processes at once: the second removes the directory that the first has returned ... *)
Theorem C97_two_processes_removed_refuted : forall B (good : B -> bool) unzip b tr same_fs,
  good b = true -> unzip b = Some tr -> is_cub_installed (Some tr) = true ->
  exists s, run good unzip is_cub_installed cub_zip_dir same_fs false (nobody {| archive := None; target := None |}) s /\
            returned s 0 0 (Ok tt) /\ target (disk s) = None.
Proof.
  intros B good unzip b tr same_fs G U I. apply (two_removed_lemma good unzip is_cub_installed cub_zip_dir same_fs b tr); auto.
Qed.
(* ... or writes another archive after the first has compared the hash, and the first unpacks it, whatever it is. *)
Theorem C97_two_processes_unverified_refuted : forall B (good : B -> bool) unzip b x tr same_fs,
  good b = true -> unzip x = Some tr -> is_cub_installed (Some tr) = true ->
  exists s, run good unzip is_cub_installed cub_zip_dir same_fs false (nobody {| archive := None; target := None |}) s /\
            returned s 0 0 (Ok tt) /\ target (disk s) = Some tr.
Proof.
  intros B good unzip b x tr same_fs G U I. apply (two_unverified_lemma good unzip is_cub_installed cub_zip_dir same_fs b x tr); auto.
Qed.

(* A failure of mkdtemp is reported as an unbound variable, not as a failed installation. *)
Theorem C97_mkdtemp_refuted : forall B (good : B -> bool) unzip b same_fs, good b = true ->
  exists s, run good unzip is_cub_installed cub_zip_dir same_fs true (nobody {| archive := None; target := None |}) s /\
            returned s 0 0 (Raise NameError).
Proof. intros B good unzip b same_fs G. apply (mkdtemp_lemma good unzip is_cub_installed cub_zip_dir same_fs b); auto. Qed.

(* Non-vacuity: the files of C97_present_cub. *)
Example C97_ex_present : has_file (Some (ex_tree true)) ["cub"; "cub.cuh"]%string ["#include util_ptx.cuh"]%string /\
  has_file (Some (ex_tree true)) ["README.md"]%string ["CUB"; "Current release: v1.8.0 (02/16/2018)"]%string /\
  occurs "Current release: v1.8.0 (02/16/2018)" "Current release: v1.8.0 (02/16/2018)".
Proof. split; [exists (ex_tree true); split; reflexivity | split; [exists (ex_tree true); split; reflexivity | exists EmptyString, EmptyString; reflexivity]]. Qed.
(* Non-vacuity: the archive true passes the check; a run ends with the complete directory. *)
Example C97_ex_recovers : exists s', run ex_good ex_unzip is_cub_installed cub_zip_dir true true (nobody ex_disk) s' /\
  returned s' 0 0 (Ok tt) /\ complete ex_good ex_unzip (target (disk s')).
Proof.
  apply (C97_recovery bool ex_good ex_unzip is_cub_installed cub_zip_dir true); [exists true; reflexivity | | intro; reflexivity].
  intros b _. exists (ex_tree b). split; [reflexivity |]. destruct b; vm_compute; reflexivity.
Qed.
Example C97_ex_incomplete : exists s, run ex_good ex_unzip is_cub_installed cub_zip_dir false true (nobody ex_disk) s /\
  returned s 1 0 (Ok tt) /\ ~ complete ex_good ex_unzip (target (disk s)).
Proof.
  destruct (C97_interrupted_cub_refuted bool ex_good ex_unzip true (ex_tree true) ex_header) as (s & R & E & T);
    [reflexivity | reflexivity | vm_compute; reflexivity | discriminate | discriminate |].
  exists s. split; [exact R | split; [exact E |]]. intros (b & tr & G & U & D). rewrite T in D. injection D as D.
  unfold ex_unzip in U. injection U as U. assert (X : without ex_header (ex_tree true) ex_header = ex_tree b ex_header) by (rewrite D, U; reflexivity).
  destruct b; vm_compute in X; discriminate.
Qed.
Example C97_ex_unverified : exists s, run ex_good ex_unzip is_cub_installed cub_zip_dir true false (nobody ex_disk) s /\
  returned s 0 0 (Ok tt) /\ ~ genuine ex_good ex_unzip cub_zip_dir None (target (disk s)).
Proof.
  destruct (C97_two_processes_unverified_refuted bool ex_good ex_unzip true false (ex_tree false) true) as (s & R & E & T);
    [reflexivity | reflexivity | vm_compute; reflexivity |].
  exists s. split; [exact R | split; [exact E |]]. intro G. rewrite T in G.
  destruct (G (ex_tree false) ex_header ["int x = system(0);"]%string eq_refl) as [(t0 & X & _)|(b & tr & p' & Gb & U & X & _)];
    [vm_compute; reflexivity | discriminate |].
  unfold ex_good in Gb. subst b. unfold ex_unzip in U. injection U as <-. unfold ex_tree in X.
  destruct (path_eq p' readme); [discriminate |]. destruct (path_eq p' cub_header); [discriminate |].
  destruct (path_eq p' ex_header); discriminate.
Qed.

Print Assumptions C97_returned.
Print Assumptions C97_returned_cub.
Print Assumptions C97_returned_trove.
Print Assumptions C97_present_cub.
Print Assumptions C97_present_trove.
Print Assumptions C97_kept.
Print Assumptions C97_verified.
Print Assumptions C97_bad_downloads.
Print Assumptions C97_lock.
Print Assumptions C97_complete_cub.
Print Assumptions C97_complete_trove.
Print Assumptions C97_recovery.
Print Assumptions C97_interrupted_cub_refuted.
Print Assumptions C97_interrupted_trove_refuted.
Print Assumptions C97_two_processes_removed_refuted.
Print Assumptions C97_two_processes_unverified_refuted.
Print Assumptions C97_mkdtemp_refuted.
