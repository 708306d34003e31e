(* Specification vocabulary for C36-C41: calibration of visibilities. *)
From Coq Require Import Sorting.Sorted.
From Verif Require Import Prelude CRing CField PredictModel PredictSpec CalModel AvgSpec.
Open Scope nat_scope.

(* row r belongs to time bin t; tmin is the first row index of the table (the minimum) *)
Definition in_bin (tbi : arr Z) (tmin : Z) (tbc : arr nat) (t r : nat) : Prop :=
  (tbi t - tmin <= Z.of_nat r < tbi t - tmin + Z.of_nat (tbc t))%Z.
(* no row is in two bins *)
Definition bins_disjoint (n : nat) (tbi : arr Z) (tmin : Z) (tbc : arr nat) : Prop :=
  forall t t' r, t < n -> t' < n -> in_bin tbi tmin tbc t r -> in_bin tbi tmin tbc t' r -> t = t'.

Definition mode_full (m : cmode) : bool := match m with DIAG_DIAG => false | _ => true end.

Section CalSpec.
  Context {F : fops}.
  Open Scope K_scope.

  (* the 2x2 diagonal matrix of a vector *)
  Definition jdiag (v : jones F) : jones F := fun i j => if Nat.eqb i j then v i 0%nat else 0.
  (* G_p M G_q^H for the three polarisation modes *)
  Definition gsandwich (mode : cmode) (a m b : jones F) : jones F :=
    match mode with
    | DIAG_DIAG => sandwich false a m b
    | DIAG => sandwich true (jdiag a) m (jdiag b)
    | FULL => sandwich true a m b
    end.
  (* the corrupted model of row r, channel f at time t: sum over directions *)
  Definition corrupted (mode : cmode) (g : gain_arr F) (m : model_arr F) (ant1 ant2 : arr nat) (t r f : nat) : jones F :=
    jsum (m_dir m) (fun s => gsandwich mode (j_at g t (ant1 r) f s) (m_at m r f s) (j_at g t (ant2 r) f s)).

  Definition jsub (a b : jones F) : jones F := fun i j => a i j - b i j.

  (* invertible gain *)
  Definition gain_ok (mode : cmode) (n : nat) (a : jones F) : Prop :=
    match mode with
    | DIAG_DIAG => forall c, c < n -> a c 0%nat <> 0
    | DIAG => a 0%nat 0%nat <> 0 /\ a 1%nat 0%nat <> 0
    | FULL => a 0%nat 0%nat * a 1%nat 1%nat - a 0%nat 1%nat * a 1%nat 0%nat <> 0
    end.

  (* some correlation of the cell is flagged *)
  Definition flagged (full : bool) (n : nat) (fl : arr2 bool) : Prop :=
    exists i j, corr_ok full n i j /\ fl i j = true.

  (* (toff, nt): time bins of a chunk; (roff, nr): its rows.  The rows of the chunk's bins are
     in the chunk, those of the other bins are not, and the first row index is that of row roff. *)
  Record aligned (n : nat) (tbi : arr Z) (tmin : Z) (tbc : arr nat) (toff nt roff nr : nat) : Prop := {
    al_pos : 0 < nt;
    al_tim : toff + nt <= n;
    al_min : is_min nt (fun t => tbi (toff + t)%nat) (tmin + Z.of_nat roff)%Z;
    al_in : forall t r, t < nt -> in_bin tbi tmin tbc (toff + t) r -> roff <= r < roff + nr;
    al_out : forall t r, t < n -> in_bin tbi tmin tbc t r -> roff <= r < roff + nr -> toff <= t < toff + nt
  }.
End CalSpec.

(* the rows of chunk rb are those of its time bins *)
Definition chunk_aligned n tbi tmin tbc (ch : cal_chunks) rb : Prop :=
  aligned n tbi tmin tbc (off (cc_time ch) rb) (nth rb (cc_time ch) 0) (off (cc_row ch) rb) (nth rb (cc_row ch) 0).

(* an axis of n elements in several chunks *)
Definition in_several (chunks : list nat) (n : nat) : Prop := list_sum chunks = n /\ 2 <= length chunks /\ Forall (fun k => 0 < k) chunks.

(* C39 *)
(* us lists the distinct times in ascending order *)
Definition distinct_times (nrow : nat) (time : arr Z) (us : list Z) : Prop :=
  StronglySorted Z.lt us /\ forall x, In x us <-> exists r, r < nrow /\ time r = x.
