(* Facts about the exact rational arithmetic [QcF]. *)
From Coq Require Import QArith QArith.Qcanon Lqa.
From Verif Require Import Prelude AvgModel AvgSpec QcArith.
Close Scope Qc_scope. Close Scope Q_scope.
Open Scope nat_scope.

(* ---------- exact arithmetic ---------- *)
Lemma Qc_ltb_lt x y : Qc_ltb x y = true <-> (x < y)%Qc.
Proof.
  unfold Qc_ltb, Qclt, Qccompare. rewrite Qlt_alt.
  destruct ((x ?= y)%Q); split; intros; congruence.
Qed.
Lemma Qc_ltb_ge x y : Qc_ltb x y = false <-> (y <= x)%Qc.
Proof.
  split.
  - intros H. apply Qcnot_lt_le. intros C. apply Qc_ltb_lt in C. congruence.
  - intros H. destruct (Qc_ltb x y) eqn:E; [|reflexivity].
    apply Qc_ltb_lt in E. exfalso. apply (Qcle_not_lt _ _ H E).
Qed.

Lemma QcF_ok big : arith_ok (QcF big).
Proof.
  constructor; cbn.
  - constructor.
    + intros x. apply Qc_ltb_ge. apply Qcle_refl.
    + intros x y z A B. apply Qc_ltb_lt in A, B. apply Qc_ltb_lt. eapply Qclt_trans; eauto.
    + intros x y A B. apply Qc_ltb_ge in A, B. now apply Qcle_antisym.
  - intros x y. rewrite negb_true_iff. split.
    + intros A B. subst. unfold Qc_eq_bool in A. destruct (Qc_eq_dec y y); congruence.
    + intros A. unfold Qc_eq_bool. destruct (Qc_eq_dec x y); congruence.
Qed.

Lemma qc_plus (x y : Qc) : (this (x + y)%Qc == this x + this y)%Q.
Proof. exact (Qred_correct (this x + this y)). Qed.
Lemma qc_mult (x y : Qc) : (this (x * y)%Qc == this x * this y)%Q.
Proof. exact (Qred_correct (this x * this y)). Qed.
Lemma qc_opp (x : Qc) : (this (- x)%Qc == - this x)%Q.
Proof. exact (Qred_correct (- this x)). Qed.
Lemma qc_minus (x y : Qc) : (this (x - y)%Qc == this x - this y)%Q.
Proof. unfold Qcminus. rewrite qc_plus, qc_opp. reflexivity. Qed.
Lemma qc_half : (this (Q2Qc (1 # 2)) == 1 # 2)%Q.
Proof. reflexivity. Qed.

Ltac qc_norm :=
  unfold Qclt, Qcle in *;
  repeat match goal with
  | H : context [this (?x + ?y)%Qc] |- _ => rewrite (qc_plus x y) in H
  | H : context [this (?x - ?y)%Qc] |- _ => rewrite (qc_minus x y) in H
  | H : context [this (?x * ?y)%Qc] |- _ => rewrite (qc_mult x y) in H
  | H : context [this (- ?x)%Qc] |- _ => rewrite (qc_opp x) in H
  | |- context [this (?x + ?y)%Qc] => rewrite (qc_plus x y)
  | |- context [this (?x - ?y)%Qc] => rewrite (qc_minus x y)
  | |- context [this (?x * ?y)%Qc] => rewrite (qc_mult x y)
  | |- context [this (- ?x)%Qc] => rewrite (qc_opp x)
  end;
  rewrite ?qc_half in *.
Ltac qc_lra := qc_norm; lra.
