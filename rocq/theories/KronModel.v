(* Model of /repo/africanus/linalg/kronecker_tools.py *)
From Verif Require Import Prelude CRing CField.
Open Scope nat_scope.

Section Kron.
  Context {K : cops}.
  Open Scope K_scope.

  Record mat : Type := { m_r : nat; m_c : nat; m_e : nat -> nat -> K }.
  Record vec : Type := { x_n : nat; x_e : nat -> K }.

  (* kronecker_tools.py:7-26 kron_N.  The product is formed in float64 in the code; here exactly. *)
  Definition kron_N (A : list mat) : nat := fold_left (fun p a => (p * m_r a)%nat) A 1%nat.

  (* np.reshape(x, (g, rem)) in C order *)
  Definition reshape2 (x : vec) (g rem : nat) : res (nat -> nat -> K) :=
    if Nat.eqb (g * rem) (x_n x) then Ok (fun a c => x_e x (a * rem + c)%nat) else Raise ValueError.
  (* einsum "ab,bc->ac" of a with the (g, rem) matrix X, then the flattened transpose.  einsum
     would broadcast an axis of length one; here a mismatch raises. *)
  Definition contract (a : mat) (g rem : nat) (X : nat -> nat -> K) : res vec :=
    if Nat.eqb (m_c a) g then
      Ok {| x_n := (rem * m_r a)%nat;
            x_e := fun i => let c := (i / m_r a)%nat in let r := (i mod m_r a)%nat in
                            csum g (fun b => m_e a r b * X b c) |}
    else Raise ValueError.

  (* kronecker_tools.py:29-59 kron_matvec *)
  Fixpoint kron_matvec_loop (N : nat) (A : list mat) (x : vec) : res vec :=
    match A with
    | [] => Ok x
    | a :: A' =>
        let Gd := m_r a in
        if Nat.eqb Gd 0 then Raise ZeroDivision
        else
          do! X <- reshape2 x Gd (N / Gd);
          do! x' <- contract a Gd (N / Gd) X;
          kron_matvec_loop N A' x'
    end.
  Definition kron_matvec (A : list mat) (b : vec) : res vec := kron_matvec_loop (x_n b) A b.

  (* int8 storage of the shapes, kronecker_tools.py:84-87: values wrap modulo 256 (numpy < 2) *)
  Definition wrap8 (n : nat) : Z := ((Z.of_nat n + 128) mod 256 - 128)%Z.
  (* np.prod(np.delete(G, d)): the product is formed in the platform integer *)
  Definition prod_others (G : list Z) (d : nat) : Z :=
    fold_left Z.mul (firstn d G ++ skipn (S d) G) 1%Z.
  Fixpoint list_upd (l : list Z) (i : nat) (v : Z) : list Z :=
    match l, i with
    | [], _ => []
    | _ :: r, O => v :: r
    | x :: r, S k => x :: list_upd r k v
    end.
  (* reshape with the int8 sizes.  Sizes that have wrapped to negative values, which numpy may
     take for an unknown dimension, are modelled as an error. *)
  Definition reshapeZ (x : vec) (g rem : Z) : res (nat -> nat -> K) :=
    if (Z.ltb g 0 || Z.ltb rem 0)%bool then Raise ValueError else reshape2 x (Z.to_nat g) (Z.to_nat rem).

  (* kronecker_tools.py:62-98 kron_tensorvec *)
  Definition kron_tensorvec (A : list mat) (b : vec) : res vec :=
    let G0 := map (fun a => wrap8 (m_c a)) A in
    let M := map (fun a => wrap8 (m_r a)) A in
    do! (x, _) <-
      forM (length A) (fun d (st : vec * list Z) =>
        let '(x, G) := st in
        let a := nth d A {| m_r := 0; m_c := 0; m_e := fun _ _ => 0 |} in
        let Gd := nth d G 0%Z in
        let rem := prod_others G d in
        do! X <- reshapeZ x Gd rem;
        do! x' <- contract a (Z.to_nat Gd) (Z.to_nat rem) X;
        Ok (x', list_upd G d (nth d M 0%Z))) (b, G0);
    Ok x.

  (* kronecker_tools.py:101-125 kron_matmat and 128-154 kron_tensormat.  The result array is
     float64: [store] is the conversion made by the assignment (the identity on real data). *)
  Definition mat_col (B : mat) (i : nat) : vec := {| x_n := m_r B; x_e := fun r => m_e B r i |}.
  Definition apply_cols (op : vec -> res vec) (store : K -> K) (A : list mat) (B : mat) : res mat :=
    let M := m_c B in
    let N := kron_N A in
    do! C <- forM M (fun i (C : nat -> nat -> K) =>
               do! x <- op (mat_col B i);
               if Nat.eqb (x_n x) N then Ok (fun r c => if Nat.eqb c i then store (x_e x r) else C r c)
               else Raise ValueError) (fun _ _ => 0);
    Ok {| m_r := N; m_c := M; m_e := C |}.
  Definition kron_matmat (store : K -> K) (A : list mat) (B : mat) : res mat :=
    apply_cols (kron_matvec A) store A B.
  Definition kron_tensormat (store : K -> K) (A : list mat) (B : mat) : res mat :=
    apply_cols (kron_tensorvec A) store A B.

  (* kronecker_tools.py:157-185 kron_cholesky: np.linalg.cholesky is an oracle that may raise;
     eps is 1e-13 *)
  Definition add_jitter (eps : K) (a : mat) : mat :=
    {| m_r := m_r a; m_c := m_c a; m_e := fun i j => m_e a i j + (if Nat.eqb i j then eps else 0) |}.
  Fixpoint kron_cholesky (chol : mat -> res mat) (eps : K) (A : list mat) : res (list mat) :=
    match A with
    | [] => Ok []
    | a :: A' =>
        do! l <- match chol a with Ok l => Ok l | Raise _ => chol (add_jitter eps a) end;
        do! ls <- kron_cholesky chol eps A';
        Ok (l :: ls)
    end.
End Kron.
Arguments mat : clear implicits.
Arguments vec : clear implicits.
