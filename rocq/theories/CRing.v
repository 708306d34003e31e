(* Exact complex arithmetic, abstractly: an operations record used by the models and a
   separate record of laws (commutative ring with conjugation) used as a hypothesis of the
   theorems.  Nothing here models a function of /repo. *)
From Coq Require Import Ring Permutation.
From Verif Require Import Prelude.

Record cops : Type := {
  car :> Type;
  c0 : car; c1 : car;
  cadd : car -> car -> car;
  cmul : car -> car -> car;
  csub : car -> car -> car;
  copp : car -> car;
  cconj : car -> car
}.
Arguments c0 {c}. Arguments c1 {c}. Arguments cadd {c}. Arguments cmul {c}.
Arguments csub {c}. Arguments copp {c}. Arguments cconj {c}.

Record claws (K : cops) : Prop := {
  law_ring : ring_theory (@c0 K) c1 cadd cmul csub copp (@eq K);
  law_conj_add : forall x y : K, cconj (cadd x y) = cadd (cconj x) (cconj y);
  law_conj_mul : forall x y : K, cconj (cmul x y) = cmul (cconj x) (cconj y);
  law_conj_conj : forall x : K, cconj (cconj x) = x
}.

Declare Scope K_scope.
Delimit Scope K_scope with K.
Infix "+" := cadd : K_scope.
Infix "*" := cmul : K_scope.
Infix "-" := csub : K_scope.
Notation "0" := c0 : K_scope.
Notation "1" := c1 : K_scope.

(* sum of f 0 .. f (n-1) *)
Fixpoint csum {K : cops} (n : nat) (f : nat -> K) : K :=
  match n with
  | O => 0%K
  | S k => (csum k f + f k)%K
  end.

Section Laws.
  Context {K : cops} (L : claws K).
  Add Ring Kring : (law_ring K L).
  Open Scope K_scope.

  Lemma conj_0 : cconj (0 : K) = 0.
  Proof.
    assert (H : cconj (0 : K) + cconj 0 = cconj 0) by (rewrite <- (law_conj_add K L); f_equal; ring).
    assert (X : cconj (0 : K) = (cconj 0 + cconj 0) - cconj 0) by ring. rewrite H in X. rewrite X. ring.
  Qed.
  Lemma conj_1 : cconj (1 : K) = 1.
  Proof.
    assert (H : cconj (1 : K) = cconj 1 * cconj (cconj 1)).
    { rewrite (law_conj_conj K L). ring. }
    rewrite H, <- (law_conj_mul K L). assert (E : (1 : K) * cconj 1 = cconj 1) by ring.
    rewrite E. apply (law_conj_conj K L).
  Qed.

  Lemma conj_opp (x : K) : cconj (copp x) = copp (cconj x).
  Proof.
    assert (H : cconj (copp x) + cconj x = 0).
    { rewrite <- (law_conj_add K L). assert (copp x + x = 0) as -> by ring. apply conj_0. }
    assert (X : cconj (copp x) = (cconj (copp x) + cconj x) + copp (cconj x)) by ring.
    rewrite X, H. ring.
  Qed.
  Lemma conj_sub (x y : K) : cconj (x - y) = cconj x - cconj y.
  Proof.
    assert (x - y = x + copp y) as -> by ring. rewrite (law_conj_add K L), conj_opp. ring.
  Qed.

  Lemma csum_ext n (f g : nat -> K) : (forall i, (i < n)%nat -> f i = g i) -> csum n f = csum n g.
  Proof.
    induction n as [|n IH]; intros H; simpl; [reflexivity|].
    rewrite IH by (intros; apply H; lia). rewrite H by lia. reflexivity.
  Qed.
  Lemma csum_0 n : csum n (fun _ => (0 : K)) = 0.
  Proof. induction n as [|n IH]; simpl; [reflexivity|rewrite IH; ring]. Qed.
  Lemma csum_add n (f g : nat -> K) : csum n (fun i => f i + g i) = csum n f + csum n g.
  Proof. induction n as [|n IH]; simpl; [ring|rewrite IH; ring]. Qed.
  Lemma csum_mul_l n (a : K) (f : nat -> K) : csum n (fun i => a * f i) = a * csum n f.
  Proof. induction n as [|n IH]; simpl; [ring|rewrite IH; ring]. Qed.
  Lemma csum_mul_r n (a : K) (f : nat -> K) : csum n (fun i => f i * a) = csum n f * a.
  Proof. induction n as [|n IH]; simpl; [ring|rewrite IH; ring]. Qed.
  Lemma csum_opp n (f : nat -> K) : csum n (fun i => copp (f i)) = copp (csum n f).
  Proof. induction n as [|n IH]; simpl; [ring|rewrite IH; ring]. Qed.
  Lemma csum_conj n (f : nat -> K) : cconj (csum n f) = csum n (fun i => cconj (f i)).
  Proof.
    induction n as [|n IH]; simpl; [apply conj_0|]. now rewrite (law_conj_add K L), IH.
  Qed.
  Lemma csum_split n m (f : nat -> K) : csum (n + m) f = csum n f + csum m (fun i => f (n + i)%nat).
  Proof.
    induction m as [|m IH]; simpl; [rewrite Nat.add_0_r; ring|].
    rewrite Nat.add_succ_r. simpl. rewrite IH. ring.
  Qed.
  Lemma csum_swap n m (f : nat -> nat -> K) :
    csum n (fun i => csum m (f i)) = csum m (fun j => csum n (fun i => f i j)).
  Proof.
    induction n as [|n IH]; simpl; [symmetry; apply csum_0|]. rewrite IH, <- csum_add. reflexivity.
  Qed.

  (* a sum as a sum over a list *)
  Fixpoint lcsum (l : list K) : K := match l with [] => 0 | x :: r => x + lcsum r end.
  Lemma lcsum_app l m : lcsum (l ++ m) = lcsum l + lcsum m.
  Proof. induction l as [|x l IH]; simpl; [ring|rewrite IH; ring]. Qed.
  Lemma csum_list n f : csum n f = lcsum (map f (seq 0 n)).
  Proof.
    induction n as [|n IH]; [reflexivity|]. rewrite seq_S, map_app, lcsum_app. simpl. rewrite IH. ring.
  Qed.
  Lemma lcsum_perm l m : Permutation l m -> lcsum l = lcsum m.
  Proof. induction 1; simpl; [reflexivity|now rewrite IHPermutation|ring|congruence]. Qed.
  Lemma csum_perm n (f : nat -> K) (p : nat -> nat) :
    Permutation (map p (seq 0 n)) (seq 0 n) -> csum n (fun i => f (p i)) = csum n f.
  Proof.
    intros P. rewrite !csum_list. rewrite <- (map_map p f). apply lcsum_perm, Permutation_map, P.
  Qed.
  Lemma csum_only n k (f : nat -> K) : (k < n)%nat -> (forall i, (i < n)%nat -> i <> k -> f i = 0) ->
    csum n f = f k.
  Proof.
    intros Hk. induction n as [|n IH]; intros H; [lia|]. simpl. destruct (Nat.eq_dec k n) as [->|Ne].
    - rewrite (csum_ext n f (fun _ => 0)), csum_0; [ring|]. intros i Hi. apply H; lia.
    - rewrite IH by (intros; try apply H; lia). rewrite (H n) by lia. ring.
  Qed.
End Laws.

(* Gaussian integers: the instance used by the examples *)
Record gint : Type := Gi { g_re : Z; g_im : Z }.
Definition GI : cops := {|
  car := gint; c0 := Gi 0 0; c1 := Gi 1 0;
  cadd := fun x y => Gi (g_re x + g_re y) (g_im x + g_im y);
  cmul := fun x y => Gi (g_re x * g_re y - g_im x * g_im y) (g_re x * g_im y + g_im x * g_re y);
  csub := fun x y => Gi (g_re x - g_re y) (g_im x - g_im y);
  copp := fun x => Gi (- g_re x) (- g_im x);
  cconj := fun x => Gi (g_re x) (- g_im x) |}%Z.
Lemma GI_laws : claws GI.
Proof.
  constructor.
  - constructor; intros; repeat match goal with x : car GI |- _ => destruct x end; cbn [car c0 c1 cadd cmul csub copp cconj GI g_re g_im]; f_equal; ring.
  - intros [a b] [c d]; cbn [car c0 c1 cadd cmul csub copp cconj GI g_re g_im]; f_equal; ring.
  - intros [a b] [c d]; cbn [car c0 c1 cadd cmul csub copp cconj GI g_re g_im]; f_equal; ring.
  - intros [a b]; simpl; f_equal; ring.
Qed.
