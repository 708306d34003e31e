(* Observing one quantity through a loop. *)
From Verif Require Import Prelude PreludeFacts CRing.

(* the loop never changes the observed quantity *)
Lemma for_frame {T X} (obs : T -> X) n body s :
  (forall i s, i < n -> obs (body i s) = obs s) -> obs (for_ n body s) = obs s.
Proof. induction n as [|n IH]; intros H; auto. rewrite for_S, H by lia. apply IH. intros i s' Hi. apply H. lia. Qed.
(* exactly iteration k changes it *)
Lemma for_at {T X} (obs : T -> X) (u : X -> X) k n body s : k < n ->
  (forall i s, i < n -> i <> k -> obs (body i s) = obs s) ->
  (forall s, obs (body k s) = u (obs s)) -> obs (for_ n body s) = u (obs s).
Proof.
  intros Hk Hf Hu. induction n as [|n IH]; [lia|]. rewrite for_S. destruct (Nat.eq_dec k n) as [->|E].
  - rewrite Hu. f_equal. apply for_frame. intros i s' Hi. apply Hf; lia.
  - rewrite Hf by lia. apply IH; [lia|]. intros i s' Hi. apply Hf. lia.
Qed.
(* every iteration adds something *)
Lemma for_csum {T} {K : cops} (L : claws K) (obs : T -> K) (v : nat -> K) n body s :
  (forall i s, i < n -> obs (body i s) = cadd (obs s) (v i)) ->
  obs (for_ n body s) = cadd (obs s) (csum n v).
Proof.
  induction n as [|n IH]; intros H.
  - cbn. rewrite (Radd_comm (law_ring K L)). symmetry. apply (Radd_0_l (law_ring K L)).
  - rewrite for_S, H by lia. rewrite IH by (intros i s' Hi; apply H; lia). cbn [csum].
    symmetry. apply (Radd_assoc (law_ring K L)).
Qed.
(* an invariant of the state together with an observation *)
Lemma forM_total {T} (P : T -> Prop) n body s : P s ->
  (forall i s, i < n -> P s -> exists s', body i s = Ok s' /\ P s') -> exists s', forM n body s = Ok s' /\ P s'.
Proof.
  intros H0 H. induction n as [|n IH]; [exists s; auto|]. destruct IH as (s1 & E & P1).
  { intros i s' Hi. apply H. lia. }
  cbn [forM]. rewrite E. cbn [bind]. apply H; auto.
Qed.
(* a loop whose bodies do not raise *)
Lemma forM_pure {T} n (body : nat -> T -> res T) body' s :
  (forall i s, i < n -> body i s = Ok (body' i s)) -> forM n body s = Ok (for_ n body' s).
Proof.
  induction n as [|n IH]; intros H; [reflexivity|]. cbn [forM]. rewrite IH by (intros; apply H; lia). cbn [bind].
  rewrite for_S. apply H. lia.
Qed.
(* a loop with only one kind of exception, some body of which raises *)
Lemma forM_raise {T} n (body : nat -> T -> res T) e k s : k < n ->
  (forall s, body k s = Raise e) -> (forall i s, i < n -> (exists s', body i s = Ok s') \/ body i s = Raise e) ->
  forM n body s = Raise e.
Proof.
  induction n as [|n IH]; intros Hk Hr H; [lia|]. cbn [forM]. destruct (Nat.eq_dec k n) as [->|E].
  - assert (A : (exists s', forM n body s = Ok s') \/ forM n body s = Raise e).
    { clear - H. assert (G : forall m, m <= n -> (exists s', forM m body s = Ok s') \/ forM m body s = Raise e).
      { induction m as [|m IHm]; intros Hm; [left; now exists s|]. cbn [forM]. assert (Hm' : m <= n) by lia. destruct (IHm Hm') as [(s' & ->)| ->]; [cbn; apply H; lia|auto]. }
      apply G. lia. }
    destruct A as [(s' & ->)| ->]; cbn; auto.
  - rewrite IH; [reflexivity|lia|exact Hr|]. intros i s' Hi. apply H. lia.
Qed.
