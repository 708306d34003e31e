(* Vocabulary for C89: the progress bar. *)
From Coq Require Import String QArith QArith.Qcanon.
From Verif Require Import Prelude QcArith BarModel.
Close Scope string_scope. Close Scope Q_scope. Close Scope Qc_scope.
Open Scope nat_scope.

(* a time of hi big units and lo small ones, with something less than a small unit left over *)
Definition measures (t : Qc) (big small hi lo : Z) : Prop :=
  (1 <= hi)%Z /\ (0 <= lo)%Z /\ (lo * small < big)%Z /\
  (q_of (hi * big + lo * small) <= t)%Qc /\ (t < q_of (hi * big + (lo + 1) * small))%Qc.

Section History.
  Context (key : Type) (key_eqb : key -> key -> bool) (bin_of : key -> res string).

  (* Histories are read backwards: the newest event comes first. *)
  (* when the task that is running under this key was started *)
  Fixpoint since (past : list (event key)) (k : key) : option Qc :=
    match past with
    | [] => None
    | Pre k' t :: past => if key_eqb k k' then Some t else since past k
    | Post k' _ :: past => if key_eqb k k' then None else since past k
    end.
  Definition in_bin (s : string) (k : key) : bool := match bin_of k with Ok s' => String.eqb s s' | Raise _ => false end.
  (* how many tasks of a bin were finished, and how long they took together *)
  Fixpoint finished_in (s : string) (past : list (event key)) : nat :=
    match past with
    | [] => 0
    | Pre _ _ :: past => finished_in s past
    | Post k _ :: past => (if in_bin s k then 1 else 0) + finished_in s past
    end.
  Fixpoint spent_in (s : string) (past : list (event key)) : Qc :=
    match past with
    | [] => 0%Qc
    | Pre _ _ :: past => spent_in s past
    | Post k now :: past =>
        match since past k with
        | Some t => if in_bin s k then (now - t + spent_in s past)%Qc else spent_in s past
        | None => spent_in s past
        end
    end.
  (* and over all bins *)
  Fixpoint spent (past : list (event key)) : Qc :=
    match past with
    | [] => 0%Qc
    | Pre _ _ :: past => spent past
    | Post k now :: past => match since past k with Some t => (now - t + spent past)%Qc | None => spent past end
    end.
  Definition tasks_in (s : string) (dsk : list key) : nat := length (filter (in_bin s) dsk).

  (* every finished task was running *)
  Fixpoint orderly (past : list (event key)) : Prop :=
    match past with
    | [] => True
    | Pre _ _ :: past => orderly past
    | Post k _ :: past => since past k <> None /\ orderly past
    end.

  (* keys in the order in which they were finished *)
  Definition finished (es : list (event key)) : list key := flat_map (fun e => match e with Post k _ => [k] | Pre _ _ => [] end) es.
  (* no task finished before it started *)
  Fixpoint forward (past : list (event key)) : Prop :=
    match past with
    | [] => True
    | Pre _ _ :: past => forward past
    | Post k now :: past => (forall t, since past k = Some t -> (t <= now)%Qc) /\ forward past
    end.
  (* a run of the graph, finished or not: tasks of the graph, each finished at most once *)
  Definition run_of (dsk : list key) (es : list (event key)) : Prop :=
    NoDup dsk /\ NoDup (finished es) /\ incl (finished es) dsk /\ forward (rev es).

  (* the time all tasks of a bin need if the others take as long on average as the finished ones; nothing is known about a
     bin of which no task has finished *)
  Definition needed_in (dsk : list key) (past : list (event key)) (s : string) : Qc :=
    if Nat.eqb (finished_in s past) 0 then 0%Qc
    else (spent_in s past / Qc_of_nat (finished_in s past) * Qc_of_nat (tasks_in s dsk))%Qc.
End History.

Fixpoint find_bin (d : ddict) (s : string) : task_data :=
  match d with [] => no_data | (s', v) :: d => if String.eqb s s' then v else find_bin d s end.

Definition qsum {A} (f : A -> Qc) (l : list A) : Qc := fold_right (fun a acc => (f a + acc)%Qc) 0%Qc l.
(* n is x rounded down *)
Definition rounds_down (x : Qc) (n : Z) : Prop := (q_of n <= x)%Qc /\ (x < q_of (n + 1))%Qc.
