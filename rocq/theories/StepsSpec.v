(* What the theorems of C117 say. *)
From Coq Require Import Reals.
From Verif Require Import Prelude AvgModel AvgModel2 RavgModel.
Open Scope R_scope.

(* columns of exact reals *)
Definition RK : farith := rounded_cols (fun x => x).
(* the columns that averaging returns, as the input of another one: a column is there if it was there before *)
Definition kept {A B} (o : option A) (b : B) : option B := match o with Some _ => Some b | None => None end.
Definition averaged (x : chan_cols RK) (out : arr3 (out_cell RK)) : chan_cols RK := {|
  in_rweight := None;
  in_vis := kept (in_vis RK x) (fun r f c => oc_vis RK (out r f c));
  in_flag := kept (in_flag RK x) (fun r f c => oc_flag RK (out r f c));
  in_wspec := kept (in_wspec RK x) (fun r f c => oc_wspec RK (out r f c));
  in_sspec := kept (in_sspec RK x) (fun r f c => oc_sspec RK (out r f c)) |}.
(* o are the flags of the m rows into which map puts n rows with flags f: 0 or 1, and 1 if all the rows put there are flagged (C07) *)
Definition merged (n m : nat) (map : arr nat) (f o : option (arr Z)) : Prop :=
  match f, o with
  | None, None => True
  | Some f, Some o => (forall i, (i < n)%nat -> f i = 0%Z \/ f i = 1%Z) /\
      forall k, (k < m)%nat -> (o k = 0%Z \/ o k = 1%Z) /\ (o k = 1%Z <-> forall i, (i < n)%nat -> map i = k -> f i = 1%Z)
  | _, _ => False
  end.
(* the columns that are there are the same in two output cells *)
Definition same_cell (x : chan_cols RK) (a b : out_cell RK) : Prop :=
  oc_flag RK a = oc_flag RK b /\ oc_wspec RK a = oc_wspec RK b /\
  (in_vis RK x <> None -> oc_vis RK a = oc_vis RK b) /\ (in_sspec RK x <> None -> oc_sspec RK a = oc_sspec RK b).
