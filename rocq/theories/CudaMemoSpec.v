(* What a memoised function returns after a history of calls. *)
From Verif Require Import Prelude CRing CohModel DaskRimeModel CudaMemoModel.
Open Scope nat_scope.
Open Scope list_scope.

Definition decides {X} (eqb : X -> X -> bool) : Prop := forall x y, eqb x y = true <-> x = y.
(* the earliest call of h with the key of a that did not raise returned v *)
Definition first_success {A Ky V} (key : A -> Ky) (fn : A -> res V) (h : list A) (a : A) (v : V) : Prop :=
  exists earlier b later, h = earlier ++ b :: later /\ key b = key a /\ fn b = Ok v /\
    forall c, In c earlier -> key c = key a -> exists e, fn c = Raise e.
(* every call of h with the key of a raised *)
Definition no_success {A Ky V} (key : A -> Ky) (fn : A -> res V) (h : list A) (a : A) : Prop :=
  forall c, In c h -> key c = key a -> exists e, fn c = Raise e.
(* the beam cube has two points or more along l, m and frequency *)
Definition interpolable (c : beam_call) : Prop :=
  exists lw mh nud rest, ar_shape (bc_beam c) = lw :: mh :: nud :: rest /\ 2 <= lw /\ 2 <= mh /\ 2 <= nud.
(* the same elements, in the same order, in another shape *)
Definition reshaped {K : cops} (a : ndarr K) (shape : list nat) : ndarr K :=
  {| nd_shape := shape; nd_at := fun idx => nd_at a (unravel (nd_shape a) (ravel shape idx)) |}.
(* the shape without as many of its last dimensions as dims has *)
Definition leading (shape dims : list nat) : list nat := firstn (length shape - length dims) shape.
