(* Specification vocabulary for C57-C59: dense Kronecker products *)
From Verif Require Import Prelude CRing KronModel.
Open Scope nat_scope.

Section KronSpec.
  Context {K : cops}.
  Open Scope K_scope.

  (* numbers of rows and columns of K_1 (x) ... (x) K_D *)
  Definition krows (A : list (mat K)) : nat := fold_right (fun a p => (m_r a * p)%nat) 1%nat A.
  Definition kcols (A : list (mat K)) : nat := fold_right (fun a p => (m_c a * p)%nat) 1%nat A.
  (* its entries: (A (x) B)[i, j] = A[i / rows B, j / cols B] * B[i mod rows B, j mod cols B] *)
  Fixpoint kentry (A : list (mat K)) (i j : nat) : K :=
    match A with
    | [] => 1
    | a :: A' => m_e a (i / krows A') (j / kcols A') * kentry A' (i mod krows A') (j mod kcols A')
    end.
  (* dense matrix-vector product *)
  Definition dense_dot (A : list (mat K)) (b : nat -> K) (i : nat) : K :=
    csum (kcols A) (fun j => kentry A i j * b j).

  Definition square (a : mat K) : Prop := m_r a = m_c a /\ (0 < m_r a)%nat.

  (* L L^H *)
  Definition gram (L : nat -> nat -> K) (n : nat) (i j : nat) : K :=
    csum n (fun k => L i k * cconj (L j k)).
  (* the shape fits a signed byte *)
  Definition small (a : mat K) : Prop := (m_r a < 128 /\ m_c a < 128)%nat.
  (* l is a (lower triangular or not) factor of the square matrix a: l l^H = a *)
  Definition factor_of (l a : mat K) : Prop :=
    m_r l = m_r a /\ m_c l = m_r a /\ forall i j, (i < m_r a)%nat -> (j < m_r a)%nat -> gram (m_e l) (m_r a) i j = m_e a i j.
  (* a' is a with eps added to the diagonal *)
  Definition jittered (eps : K) (a a' : mat K) : Prop :=
    m_r a' = m_r a /\ m_c a' = m_c a /\
    (forall i, m_e a' i i = m_e a i i + eps) /\ (forall i j, i <> j -> m_e a' i j = m_e a i j).
End KronSpec.
