(* Real and complex numbers as instances of the arithmetic of CRing, built on the standard
   library's reals.  Nothing here models a function of /repo. *)
From Coq Require Import Reals Lra Ring.
From Verif Require Import Prelude CRing.
Open Scope R_scope.

Definition RR : cops := {| car := R; c0 := 0; c1 := 1; cadd := Rplus; cmul := Rmult; csub := Rminus; copp := Ropp; cconj := fun x => x |}.
Lemma RR_laws : claws RR.
Proof. constructor; auto. constructor; intros; cbn; ring. Qed.

Definition RC : cops := {|
  car := (R * R)%type; c0 := (0, 0); c1 := (1, 0);
  cadd := fun x y => (fst x + fst y, snd x + snd y);
  cmul := fun x y => (fst x * fst y - snd x * snd y, fst x * snd y + snd x * fst y);
  csub := fun x y => (fst x - fst y, snd x - snd y);
  copp := fun x => (- fst x, - snd x);
  cconj := fun x => (fst x, - snd x) |}.
Ltac rc := intros; repeat match goal with x : car RC |- _ => destruct x end; cbn in *; f_equal; ring.
Lemma RC_laws : claws RC.
Proof. constructor; [constructor|..]; rc. Qed.

Definition cis (x : R) : RC := (cos x, sin x).
Definition re (z : RC) : R := fst z.
Definition im (z : RC) : R := snd z.
Definition ofR (x : R) : RC := (x, 0).
(* squared modulus *)
Definition norm2 (z : RC) : R := re z * re z + im z * im z.
Lemma cis_add x y : cis (x + y) = cmul (cis x) (cis y).
Proof. unfold cis. cbn. rewrite cos_plus, sin_plus. f_equal; ring. Qed.
Lemma cis_0 : cis 0 = c1.
Proof. unfold cis. now rewrite cos_0, sin_0. Qed.
Lemma cis_opp x : cis (- x) = cconj (cis x).
Proof. unfold cis. cbn. now rewrite cos_neg, sin_antisym. Qed.
Lemma cis_norm2 x : norm2 (cis x) = 1.
Proof. unfold norm2, cis, re, im. cbn. generalize (sin2_cos2 x). unfold Rsqr. lra. Qed.
Lemma cis_conj x : cmul (cis x) (cconj (cis x)) = c1.
Proof. rewrite <- cis_opp, <- cis_add, <- cis_0. f_equal. ring. Qed.
Lemma re_csum n (f : nat -> RC) : re (csum n f) = csum (K := RR) n (fun i => re (f i)).
Proof. induction n as [|n IH]; cbn; auto. rewrite <- IH. reflexivity. Qed.
Lemma im_csum n (f : nat -> RC) : im (csum n f) = csum (K := RR) n (fun i => im (f i)).
Proof. induction n as [|n IH]; cbn; auto. rewrite <- IH. reflexivity. Qed.
