(* C109: positive definite matrices have Cholesky factors, so cholesky_routine is satisfiable. *)
From Coq Require Import Reals Lra Lia.
From Verif Require Import Prelude CRing CplxR KronModel KronSpec GpsModel GpsSpec GpsProofs ScreenSpec GpGainsSpec.
Open Scope R_scope.

Notation rsum := (csum (K := RR)).
Lemma rsum_ext n (f g : nat -> R) : (forall i, (i < n)%nat -> f i = g i) -> rsum n f = rsum n g.
Proof. exact (csum_ext (K := RR) n f g). Qed.
Lemma rsum_first n (f : nat -> R) : rsum (S n) f = f 0%nat + rsum n (fun i => f (S i)).
Proof. replace (S n) with (1 + n)%nat by lia. etransitivity; [exact (csum_split RR_laws 1 n f)|]. cbn. ring. Qed.
Lemma rsum_add n (f g : nat -> R) : rsum n (fun i => f i + g i) = rsum n f + rsum n g.
Proof. exact (csum_add RR_laws n f g). Qed.
Lemma rsum_mul n a (f : nat -> R) : rsum n (fun i => a * f i) = a * rsum n f.
Proof. exact (csum_mul_l RR_laws n a f). Qed.
Lemma rsum_0 n : rsum n (fun _ => 0) = 0.
Proof. exact (csum_0 RR_laws n). Qed.

(* Schur complement *)
Definition schur (A : arr2 R) : arr2 R := fun i j => A (S i) (S j) - A (S i) 0%nat * A 0%nat (S j) / A 0%nat 0%nat.
Fixpoint fac (n : nat) (A : arr2 R) : arr2 R :=
  match n with
  | O => fun _ _ => 0
  | S k => let L := fac k (schur A) in
      fun i j => match i, j with O, O => sqrt (A 0%nat 0%nat) | O, S _ => 0 | S i, O => A (S i) 0%nat / sqrt (A 0%nat 0%nat) | S i, S j => L i j end
  end.
Definition pd (n : nat) (A : arr2 R) : Prop := (forall i j, A i j = A j i) /\ forall x : arr R, (exists i, (i < n)%nat /\ x i <> 0) -> 0 < form n A x.

Lemma form_first n A x : (forall i j, A i j = A j i) ->
  form (S n) A x = A 0%nat 0%nat * (x 0%nat * x 0%nat) + 2 * x 0%nat * rsum n (fun j => A 0%nat (S j) * x (S j)) + form n (fun i j => A (S i) (S j)) (fun i => x (S i)).
Proof.
  intros SY. unfold form. rewrite rsum_first. rewrite (rsum_first n (fun j => x 0%nat * x j * A 0%nat j)).
  rewrite (rsum_ext n (fun i => rsum (S n) (fun j => x (S i) * x j * A (S i) j)) (fun i => x 0%nat * (A 0%nat (S i) * x (S i)) + rsum n (fun j => x (S i) * x (S j) * A (S i) (S j)))).
  2:{ intros i _. rewrite rsum_first. f_equal. rewrite (SY (S i)). ring. }
  rewrite rsum_add, rsum_mul.
  rewrite (rsum_ext n (fun i => x 0%nat * x (S i) * A 0%nat (S i)) (fun i => x 0%nat * (A 0%nat (S i) * x (S i)))) by (intros; ring). rewrite rsum_mul. ring.
Qed.
Lemma form_schur n A x : (forall i j, A i j = A j i) -> A 0%nat 0%nat <> 0 ->
  form n (schur A) x = form n (fun i j => A (S i) (S j)) x - rsum n (fun j => A 0%nat (S j) * x j) * rsum n (fun j => A 0%nat (S j) * x j) / A 0%nat 0%nat.
Proof.
  intros SY NZ. set (b := rsum n (fun j => A 0%nat (S j) * x j)).
  rewrite (form_ext n (schur A) (fun i j => A (S i) (S j) + (- / A 0%nat 0%nat) * (A 0%nat (S i) * A 0%nat (S j)))).
  2:{ intros i j _ _. unfold schur. rewrite (SY (S i) 0%nat). field. exact NZ. }
  rewrite form_add, form_scale. unfold Rminus. f_equal.
  assert (E : form n (fun i j => A 0%nat (S i) * A 0%nat (S j)) x = b * b).
  { unfold form. rewrite (rsum_ext n _ (fun i => b * (A 0%nat (S i) * x i))).
    2:{ intros i _. rewrite (rsum_ext n _ (fun j => (A 0%nat (S i) * x i) * (A 0%nat (S j) * x j))) by (intros; ring). rewrite rsum_mul. fold b. ring. }
    rewrite rsum_mul. reflexivity. }
  rewrite E. field. exact NZ.
Qed.
Lemma pd_first n A : pd (S n) A -> 0 < A 0%nat 0%nat.
Proof.
  intros [SY P]. specialize (P (fun i => match i with O => 1 | _ => 0 end) ltac:(exists 0%nat; split; [lia|lra])).
  rewrite form_first in P by exact SY. cbn beta iota in P.
  rewrite (rsum_ext n _ (fun _ => 0)) in P by (intros; ring). rewrite rsum_0 in P.
  assert (E : form n (fun i j => A (S i) (S j)) (fun _ => 0) = 0).
  { unfold form. rewrite (rsum_ext n _ (fun _ => 0)); [apply rsum_0|]. intros i _. rewrite (rsum_ext n _ (fun _ => 0)) by (intros; ring). apply rsum_0. }
  rewrite E in P. lra.
Qed.
Lemma pd_schur n A : pd (S n) A -> pd n (schur A).
Proof.
  intros PD. pose proof (pd_first n A PD) as P0. destruct PD as [SY P]. split.
  - intros i j. unfold schur. rewrite (SY (S i) (S j)), (SY (S i) 0%nat), (SY 0%nat (S j)). field. lra.
  - intros x (i & Hi & NZ). set (b := rsum n (fun j => A 0%nat (S j) * x j)).
    specialize (P (fun i => match i with O => - b / A 0%nat 0%nat | S k => x k end) ltac:(exists (S i); split; [lia|exact NZ])).
    rewrite form_first in P by exact SY. cbn beta iota in P. fold b in P.
    rewrite form_schur by (auto; lra). fold b.
    change (fun i => x i) with x in P. set (g := form n (fun i j => A (S i) (S j)) x) in *.
    match type of P with 0 < ?e => replace (g - b * b / A 0%nat 0%nat) with e; [exact P|] end. field. lra.
Qed.
Lemma fac_gram : forall n A, pd n A -> forall i j, (i < n)%nat -> (j < n)%nat -> @eq R (rsum n (fun k => fac n A i k * fac n A j k)) (A i j).
Proof.
  induction n as [|n IH]; intros A PD i j Hi Hj; [lia|]. pose proof (pd_first n A PD) as P0. pose proof (sqrt_sqrt (A 0%nat 0%nat) ltac:(lra)) as SQ.
  assert (SN : sqrt (A 0%nat 0%nat) <> 0) by (intros Z; rewrite Z in SQ; lra). destruct PD as [SY PP].
  rewrite rsum_first. cbn [fac]. destruct i as [|i], j as [|j].
  - rewrite (rsum_ext n _ (fun _ => 0)) by (intros; lra). rewrite rsum_0. lra.
  - rewrite (rsum_ext n _ (fun _ => 0)) by (intros; lra). rewrite rsum_0, (SY (S j)). field. exact SN.
  - rewrite (rsum_ext n _ (fun _ => 0)) by (intros; lra). rewrite rsum_0. field. exact SN.
  - rewrite (IH (schur A) (pd_schur n A (conj SY PP)) i j) by lia. unfold schur. rewrite (SY 0%nat (S j)).
    replace (A (S i) 0%nat / sqrt (A 0%nat 0%nat) * (A (S j) 0%nat / sqrt (A 0%nat 0%nat))) with (A (S i) 0%nat * A (S j) 0%nat / (sqrt (A 0%nat 0%nat) * sqrt (A 0%nat 0%nat))) by (field; exact SN).
    rewrite SQ. ring.
Qed.

(* a routine that checks its result *)
Definition good_factor (n : nat) (A L : arr2 R) : bool :=
  forallb (fun i => forallb (fun j => if Req_EM_T (rsum n (fun k => L i k * L j k)) (A i j) then true else false) (seq 0 n)) (seq 0 n).
Definition exact_cholesky (a : mat RR) : res (mat RR) :=
  let l := fac (m_r a) (m_e a) in
  if good_factor (m_r a) (m_e a) l then Ok {| m_r := m_r a; m_c := m_r a; m_e := l : nat -> nat -> RR |} else Raise ValueError.
Lemma good_iff n A L : good_factor n A L = true <-> forall i j, (i < n)%nat -> (j < n)%nat -> @eq R (rsum n (fun k => L i k * L j k)) (A i j).
Proof.
  unfold good_factor. rewrite forallb_forall. split.
  - intros H i j Hi Hj. specialize (H i ltac:(apply in_seq; lia)). rewrite forallb_forall in H. specialize (H j ltac:(apply in_seq; lia)).
    destruct (Req_EM_T _ _) as [E|]; [exact E|discriminate].
  - intros H i Hi. apply in_seq in Hi. rewrite forallb_forall. intros j Hj. apply in_seq in Hj. destruct (Req_EM_T _ _) as [E|E]; [reflexivity|]. elim E. apply H; lia.
Qed.
Lemma exact_cholesky_routine : cholesky_routine exact_cholesky.
Proof.
  split.
  - intros a l E. unfold exact_cholesky in E. destruct (good_factor (m_r a) (m_e a) (fac (m_r a) (m_e a))) eqn:G; [|discriminate]. injection E as <-. rewrite good_iff in G.
    split; [reflexivity|]. split; [reflexivity|]. intros i j Hi Hj. exact (G i j Hi Hj).
  - intros a _ (_ & SY & P). unfold exact_cholesky. assert (G : good_factor (m_r a) (m_e a) (fac (m_r a) (m_e a)) = true).
    { apply good_iff. apply fac_gram. split; assumption. }
    rewrite G. eexists. reflexivity.
Qed.
