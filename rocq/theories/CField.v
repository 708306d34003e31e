(* Exact complex arithmetic with division: operations for the models, field laws for the
   theorems.  Nothing here models a function of /repo. *)
From Coq Require Import Field QArith Qcanon.
From Verif Require Import Prelude CRing.

Record fops : Type := {
  fcar :> cops;
  fdiv : fcar -> fcar -> fcar;
  finv : fcar -> fcar
}.
Arguments fdiv {f}. Arguments finv {f}.
Infix "/" := fdiv : K_scope.
Notation "- x" := (copp x) : K_scope.

Record flaws (F : fops) : Prop := {
  law_c : claws F;
  law_field : field_theory (@c0 F) c1 cadd cmul csub copp fdiv finv (@eq F)
}.

Section Facts.
  Context {F : fops} (L : flaws F).
  Add Field Ffield : (law_field F L).
  Open Scope K_scope.
  Lemma mul_nz (x y : F) : x <> 0 -> y <> 0 -> x * y <> 0.
  Proof.
    intros Hx Hy H. apply Hx. assert (E : x = (x * y) * finv y) by (field; exact Hy). rewrite H in E. rewrite E. ring.
  Qed.
  Lemma conj_nz (x : F) : x <> 0 -> cconj x <> 0.
  Proof.
    intros Hx H. apply Hx. rewrite <- (law_conj_conj F (law_c F L) x), H. apply (conj_0 (law_c F L)).
  Qed.
End Facts.

(* Gaussian rationals: a model of the laws with computable operations *)
Record gq : Type := Gq { q_re : Qc; q_im : Qc }.
Definition GQc : cops := {|
  car := gq; c0 := Gq 0 0; c1 := Gq 1 0;
  cadd x y := Gq (q_re x + q_re y) (q_im x + q_im y);
  cmul x y := Gq (q_re x * q_re y - q_im x * q_im y) (q_re x * q_im y + q_im x * q_re y);
  csub x y := Gq (q_re x - q_re y) (q_im x - q_im y);
  copp x := Gq (- q_re x) (- q_im x);
  cconj x := Gq (q_re x) (- q_im x) |}.
Definition gq_inv (x : gq) : gq :=
  let n := (q_re x * q_re x + q_im x * q_im x)%Qc in Gq (q_re x / n) (- q_im x / n).
Definition GQ : fops := {| fcar := GQc; fdiv := fun x y => @cmul GQc x (gq_inv y); finv := gq_inv |}.

Lemma GQc_laws : claws GQc.
Proof.
  constructor.
  - constructor; intros; repeat match goal with x : car GQc |- _ => destruct x end;
      cbn [car GQc c0 c1 cadd cmul csub copp q_re q_im]; f_equal; ring.
  - intros [a b] [c d]. cbn [GQc cadd cconj q_re q_im]. f_equal; ring.
  - intros [a b] [c d]. cbn [GQc cmul cconj q_re q_im]. f_equal; ring.
  - intros [a b]. cbn [GQc cconj q_re q_im]. f_equal; ring.
Qed.

Lemma Qc_sq_nonneg (x : Qc) : (0 <= x * x)%Qc.
Proof.
  destruct (Qclt_le_dec x 0) as [H|H].
  - assert (E : (x * x = (- x) * (- x))%Qc) by ring. rewrite E.
    assert (0 <= - x)%Qc. { apply Qclt_le_weak in H. apply Qcopp_le_compat in H. ring_simplify in H. exact H. }
    apply (Qcmult_le_compat_r 0 (- x) (- x)) in H0; [|exact H0]. ring_simplify in H0. ring_simplify. exact H0.
  - apply (Qcmult_le_compat_r 0 x x) in H; [|exact H]. ring_simplify in H. ring_simplify. exact H.
Qed.
Lemma Qc_sumsq_0 (a b : Qc) : (a * a + b * b = 0)%Qc -> a = 0%Qc /\ b = 0%Qc.
Proof.
  intros H. pose proof (Qc_sq_nonneg a) as Ha. pose proof (Qc_sq_nonneg b) as Hb.
  assert (Za : (a * a = 0)%Qc).
  { apply Qcle_antisym; [|exact Ha]. rewrite <- H.
    assert (E : (a * a = a * a + 0)%Qc) by ring. rewrite E at 1. apply Qcplus_le_compat; [apply Qcle_refl|exact Hb]. }
  assert (Zb : (b * b = 0)%Qc). { rewrite Za in H. ring_simplify in H. ring_simplify. exact H. }
  split; [destruct (Qcmult_integral _ _ Za)|destruct (Qcmult_integral _ _ Zb)]; assumption.
Qed.

Lemma GQ_laws : flaws GQ.
Proof.
  constructor; [exact GQc_laws|]. constructor.
  - exact (law_ring _ GQc_laws).
  - cbn. intros H. injection H as H. discriminate.
  - reflexivity.
  - intros [a b] H. cbn [GQ fcar finv gq_inv GQc cmul c0 c1 q_re q_im] in *.
    assert (N : (a * a + b * b)%Qc <> 0%Qc).
    { intros E. apply Qc_sumsq_0 in E. destruct E as [-> ->]. now apply H. }
    f_equal; field; exact N.
Qed.
