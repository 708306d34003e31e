(* C57-C59, C80: Kronecker tools *)
From Verif Require Import Prelude CRing KronModel KronSpec KronProofs.
Open Scope nat_scope.

(* C57 *)
Theorem C57_kron_matvec : forall {K : cops}, claws K -> forall (A : list (mat K)) (b : vec K),
  Forall square A -> x_n b = krows A ->
  exists x, kron_matvec A b = Ok x /\ x_n x = krows A /\
    forall i, i < krows A -> x_e x i = dense_dot A (x_e b) i.
Proof. intros K L. exact (kron_matvec_dense L). Qed.
Theorem C57_bad_length : forall {K : cops} a (A : list (mat K)) (b : vec K), 0 < m_r a ->
  x_n b mod m_r a <> 0 -> kron_matvec (a :: A) b = Raise ValueError.
Proof. intros K. exact kron_matvec_bad_length. Qed.

(* C58 *)
Theorem C58_kron_tensorvec : forall {K : cops}, claws K -> forall (A : list (mat K)) (b : vec K),
  Forall small A -> x_n b = kcols A ->
  exists x, kron_tensorvec A b = Ok x /\ x_n x = krows A /\
    forall i, i < krows A -> x_e x i = dense_dot A (x_e b) i.
Proof. intros K L. exact (kron_tensorvec_dense L). Qed.

(* C59: both matrix versions apply the operator to every column *)
Theorem C59_kron_matmat : forall {K : cops}, claws K -> forall store (A : list (mat K)) (B : mat K),
  Forall square A -> m_r B = krows A ->
  exists C, kron_matmat store A B = Ok C /\ m_r C = krows A /\ m_c C = m_c B /\
    forall r i, r < krows A -> i < m_c B -> m_e C r i = store (dense_dot A (fun j => m_e B j i) r).
Proof. intros K L. exact (kron_matmat_dense L). Qed.
(* a right-hand side with another number of rows is refused *)
Theorem C59_bad_rows : forall {K : cops} store (A : list (mat K)) (B : mat K),
  Forall square A -> 0 < m_c B -> m_r B <> krows A -> kron_matmat store A B = Raise ValueError.
Proof. intros K. exact kron_matmat_bad_rows. Qed.
Theorem C59_kron_tensormat : forall {K : cops}, claws K -> forall store (A : list (mat K)) (B : mat K),
  Forall small A -> m_r B = kcols A ->
  exists C, kron_tensormat store A B = Ok C /\ m_r C = krows A /\ m_c C = m_c B /\
    forall r i, r < krows A -> i < m_c B -> m_e C r i = store (dense_dot A (fun j => m_e B j i) r).
Proof. intros K L. exact (kron_tensormat_dense L). Qed.

(* C80: the factors returned by kron_cholesky are the factors of a factorisation of the whole
   matrix, or of the matrix with jitter on the factors that could not be decomposed *)
Theorem C80_kron_cholesky : forall {K : cops}, claws K -> forall chol eps (A : list (mat K)),
  Forall square A -> (forall a, In a A -> exists l, chol a = Ok l /\ factor_of l a) ->
  exists ls, kron_cholesky chol eps A = Ok ls /\ length ls = length A /\ krows ls = krows A /\ kcols ls = krows A /\
    forall i j, i < krows A -> j < krows A -> gram (kentry ls) (krows A) i j = kentry A i j.
Proof. intros K L. exact (kron_cholesky_ok L). Qed.
Theorem C80_kron_cholesky_jitter : forall {K : cops}, claws K -> forall chol eps (A : list (mat K)),
  Forall square A ->
  (forall a, In a A -> (exists l, chol a = Ok l /\ factor_of l a) \/
     (exists e, chol a = Raise e /\ forall a', jittered eps a a' -> exists l, chol a' = Ok l /\ factor_of l a')) ->
  exists ls A', kron_cholesky chol eps A = Ok ls /\
    Forall2 (fun a a' => match chol a with Ok _ => a' = a | Raise _ => jittered eps a a' end) A A' /\
    forall i j, i < krows A -> j < krows A -> gram (kentry ls) (krows A) i j = kentry A' i j.
Proof. intros K L. exact (kron_cholesky_jittered L). Qed.

(* ---------- examples ---------- *)
Canonical GI.
Definition zi (z : Z) : GI := Gi z 0.
Definition lmat (l : list (list Z)) : mat GI :=
  {| m_r := length l; m_c := length (hd [] l); m_e := fun i j => zi (nth j (nth i l []) 0%Z) |}.
Definition ka := lmat [[1; 2]; [3; 4]]%Z.
Definition kb := lmat [[0; 1; 2]; [1; 0; -1]; [2; 2; 5]]%Z.
Definition kc := lmat [[1; 2; 3]; [0; -1; 1]]%Z.       (* 2 x 3 *)
Definition kv (n : nat) : vec GI := {| x_n := n; x_e := fun i => zi (Z.of_nat (i * i + 1)) |}.

Example ex_matvec : Forall square [ka; kb] /\ krows [ka; kb] = 6 /\
  match kron_matvec [ka; kb] (kv 6) with
  | Ok x => map (fun i => g_re (x_e x i)) (seq 0 6) = [150; -36; 399; 312; -76; 829]%Z
            /\ map (fun i => g_re (dense_dot [ka; kb] (x_e (kv 6)) i)) (seq 0 6) = map (fun i => g_re (x_e x i)) (seq 0 6)
  | Raise _ => False
  end.
Proof. split; [repeat constructor; cbn; lia|]. split; reflexivity || (vm_compute; split; reflexivity). Qed.

Example ex_tensorvec : Forall small [ka; kc; kb] /\
  match kron_tensorvec [ka; kc; kb] (kv 18) with
  | Ok x => x_n x = 12 /\
            map (fun i => g_re (dense_dot [ka; kc; kb] (x_e (kv 18)) i)) (seq 0 12) = map (fun i => g_re (x_e x i)) (seq 0 12)
  | Raise _ => False
  end.
Proof. split; [repeat constructor; cbn; lia|]. vm_compute. split; reflexivity. Qed.

(* C58 fails for a factor with 300 columns, whose size does not fit the int8 array *)
Definition kwide : mat GI := {| m_r := 1; m_c := 300; m_e := fun _ _ => zi 1 |}.
Theorem C58_int8_refuted : ~ (forall (A : list (mat GI)) (b : vec GI), x_n b = kcols A ->
  exists x, kron_tensorvec A b = Ok x).
Proof. intros H. destruct (H [kwide] (kv 300) eq_refl) as [x E]. vm_compute in E. discriminate. Qed.

(* C59: the float64 result array drops the imaginary part of complex data *)
Definition real_part (x : GI) : GI := zi (g_re x).
Theorem C59_complex_refuted : ~ (forall (A : list (mat GI)) (B C : mat GI), Forall square A -> m_r B = krows A ->
  kron_matmat real_part A B = Ok C ->
  forall r i, r < krows A -> i < m_c B -> m_e C r i = dense_dot A (fun j => m_e B j i) r).
Proof.
  intros H. specialize (H [lmat [[1]]%Z] {| m_r := 1; m_c := 1; m_e := fun _ _ => Gi 1 1 |}).
  destruct (kron_matmat real_part [lmat [[1]]%Z] {| m_r := 1; m_c := 1; m_e := fun _ _ => Gi 1 1 |}) as [C|] eqn:E; [|vm_compute in E; discriminate].
  specialize (H C ltac:(repeat constructor) eq_refl eq_refl 0 0 ltac:(cbn; lia) ltac:(cbn; lia)).
  apply (f_equal (fun x => match x with Ok C => m_e C 0 0 | Raise _ => zi 0 end)) in E. rewrite H in E. vm_compute in E. discriminate.
Qed.

(* cholesky: diag(4, 9) and [[2, 2i], [-2i, 3]] - the second is rejected by the oracle and
   decomposed after adding jitter *)
Definition dg (l : list Z) : mat GI :=
  {| m_r := length l; m_c := length l; m_e := fun i j => if Nat.eqb i j then zi (nth i l 0%Z) else zi 0 |}.
Definition chol_ex (a : mat GI) : res (mat GI) :=
  if Z.eqb (g_re (m_e a 0 0)) 4 then Ok (dg [2; 3]%Z) else Raise ValueError.
Example ex_chol :
  (exists l, chol_ex (dg [4; 9]%Z) = Ok l /\ factor_of l (dg [4; 9]%Z)) /\
  (exists e, chol_ex (dg [3; 8]%Z) = Raise e /\
     forall a', jittered (zi 1) (dg [3; 8]%Z) a' -> exists l, chol_ex a' = Ok l /\ factor_of l a').
Proof.
  split.
  - exists (dg [2; 3]%Z). split; [reflexivity|]. split; [reflexivity|]. split; [reflexivity|].
    intros [|[|i]] [|[|j]] Hi Hj; cbn in Hi, Hj; try lia; reflexivity.
  - exists ValueError. split; [reflexivity|]. intros a' (R & C & D & O). exists (dg [2; 3]%Z).
    pose proof (D 0) as D0. unfold chol_ex. rewrite D0. split; [reflexivity|].
    unfold factor_of. rewrite R. split; [reflexivity|]. split; [reflexivity|].
    intros [|[|i]] [|[|j]] Hi Hj; cbn in Hi, Hj; try lia; rewrite ?D, ?O by lia; reflexivity.
Qed.

Print Assumptions C57_kron_matvec.
Print Assumptions C57_bad_length.
Print Assumptions C58_kron_tensorvec.
Print Assumptions C58_int8_refuted.
Print Assumptions C59_kron_matmat.
Print Assumptions C59_kron_tensormat.
Print Assumptions C59_bad_rows.
Print Assumptions C59_complex_refuted.
Print Assumptions C80_kron_cholesky.
Print Assumptions C80_kron_cholesky_jitter.
