(* The complex numbers of CplxR as a field.  Nothing here models a function of /repo. *)
From Coq Require Import Reals Lra Field.
From Verif Require Import Prelude CRing CField CplxR.
Open Scope R_scope.

Definition rc_inv (z : RC) : RC := (fst z / (fst z * fst z + snd z * snd z), - snd z / (fst z * fst z + snd z * snd z)).
Definition RCF : fops := {| fcar := RC; fdiv := fun x y => cmul x (rc_inv y : RC); finv := rc_inv |}.
Lemma sumsq_0 a b : a * a + b * b = 0 -> a = 0 /\ b = 0.
Proof. intros H. assert (0 <= a * a) by apply Rle_0_sqr. assert (0 <= b * b) by apply Rle_0_sqr. split; apply Rsqr_0_uniq; unfold Rsqr; lra. Qed.
Lemma RCF_laws : flaws RCF.
Proof.
  constructor; [exact RC_laws|]. constructor.
  - exact (law_ring _ RC_laws).
  - cbn. intros H. injection H as H. lra.
  - reflexivity.
  - intros [a b] H. cbn in *. assert (N : a * a + b * b <> 0).
    { intros E. apply sumsq_0 in E. destruct E as [-> ->]. now apply H. }
    f_equal; field; exact N.
Qed.
