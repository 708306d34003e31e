(* Lemmas about the modelling vocabulary. *)
From Verif Require Import Prelude.

Lemma upd_eq {A} (f : arr A) i v : upd f i v i = v.
Proof. unfold upd. now rewrite Nat.eqb_refl. Qed.
Lemma upd_neq {A} (f : arr A) i j v : j <> i -> upd f i v j = f j.
Proof. intros H. unfold upd. destruct (Nat.eqb_spec j i); [contradiction|reflexivity]. Qed.
Lemma upd2_eq {A} (f : arr2 A) i j v : upd2 f i j v i j = v.
Proof. unfold upd2. now rewrite !Nat.eqb_refl. Qed.
Lemma upd2_neq {A} (f : arr2 A) i j a b v : (a <> i \/ b <> j) -> upd2 f i j v a b = f a b.
Proof. intros H. unfold upd2.
  destruct (Nat.eqb_spec a i), (Nat.eqb_spec b j); simpl; try reflexivity; lia. Qed.
Lemma upd3_eq {A} (f : arr3 A) i j k v : upd3 f i j k v i j k = v.
Proof. unfold upd3. now rewrite !Nat.eqb_refl. Qed.
Lemma upd3_neq {A} (f : arr3 A) i j k a b c v :
  (a <> i \/ b <> j \/ c <> k) -> upd3 f i j k v a b c = f a b c.
Proof. intros H. unfold upd3.
  destruct (Nat.eqb_spec a i), (Nat.eqb_spec b j), (Nat.eqb_spec c k);
    simpl; try reflexivity; lia. Qed.

Lemma for_S {S} n (body : nat -> S -> S) s :
  for_ (Datatypes.S n) body s = body n (for_ n body s).
Proof. reflexivity. Qed.

Lemma for_inv {S} (P : nat -> S -> Prop) n body s :
  P 0 s -> (forall k s', k < n -> P k s' -> P (Datatypes.S k) (body k s')) ->
  P n (for_ n body s).
Proof.
  intros H0 Hs. induction n as [|n IH]; simpl; [exact H0|].
  apply Hs; [lia|]. apply IH. intros k s' Hk. apply Hs. lia.
Qed.

Lemma for_ext {S} n (b1 b2 : nat -> S -> S) s :
  (forall k s', k < n -> b1 k s' = b2 k s') -> for_ n b1 s = for_ n b2 s.
Proof.
  intros H. induction n as [|n IH]; simpl; [reflexivity|].
  rewrite IH by (intros; apply H; lia). apply H. lia.
Qed.

Lemma forM_inv {S} (P : nat -> S -> Prop) n body s :
  P 0 s ->
  (forall k s', k < n -> P k s' -> exists s'', body k s' = Ok s'' /\ P (Datatypes.S k) s'') ->
  exists s', forM n body s = Ok s' /\ P n s'.
Proof.
  intros H0 Hs. induction n as [|n IH]; simpl; [exists s; split; [reflexivity|exact H0]|].
  destruct IH as [s' [E HP]]. { intros k s' Hk. apply Hs. lia. }
  rewrite E. simpl. apply Hs; [lia|exact HP].
Qed.

Lemma forM_Ok_prefix {S} n body (s s' : S) :
  forM (Datatypes.S n) body s = Ok s' -> exists s1, forM n body s = Ok s1 /\ body n s1 = Ok s'.
Proof. simpl. destruct (forM n body s); simpl; [eauto|discriminate]. Qed.

(* Partial-correctness invariant for raising loops. *)
Lemma forM_inv_ok {S} (P : nat -> S -> Prop) n body s s' :
  P 0 s ->
  (forall k s1 s2, k < n -> P k s1 -> body k s1 = Ok s2 -> P (Datatypes.S k) s2) ->
  forM n body s = Ok s' -> P n s'.
Proof.
  intros H0 Hs. revert s'. induction n as [|n IH]; intros s' E.
  - simpl in E. injection E as <-. exact H0.
  - apply forM_Ok_prefix in E. destruct E as [s1 [E1 E2]].
    apply (Hs n s1 s'); [lia| |exact E2]. apply IH; [|exact E1].
    intros k s2 s3 Hk. apply Hs. lia.
Qed.
