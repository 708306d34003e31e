(* C85: Zernike polynomials *)
From Coq Require Import Reals Lra.
From Verif Require Import Prelude CRing CplxR ZernModel ZernSpec ZernProofs ZernProofs2.
Open Scope R_scope.

(* Every index names a valid pair of degree and order, and every valid pair has exactly one index. *)
Theorem C85_index_bijective : (forall j n m, noll j = (n, m) -> zernike_order n m) /\
  (forall j j', noll j = noll j' -> j = j') /\ (forall n m, zernike_order n m -> exists j, noll j = (n, m)).
Proof. split; [exact noll_valid|split; [exact noll_injective|exact noll_surjective]]. Qed.
(* Indices are sorted by degree, then by absolute order; counted from one, cosines have even and sines odd indices. *)
Theorem C85_index_order : (forall j j' n m n' m', noll j = (n, m) -> noll j' = (n', m') -> (j < j')%nat -> (n < n')%nat \/ (n = n' /\ (Z.abs m <= Z.abs m')%Z)) /\
  (forall j n m, noll j = (n, m) -> (0 < m -> Nat.even (j + 1) = true)%Z /\ (m < 0 -> Nat.even (j + 1) = false)%Z).
Proof. split; [exact noll_ordered|exact noll_sign]. Qed.
(* The polynomial is evaluated without an exception for every index and point. *)
Theorem C85_value : forall j rho phi n m, noll j = (n, m) -> zernike j rho phi = Ok (zern n m rho phi).
Proof. exact zernike_ok. Qed.
(* Every radial polynomial is one at the edge of the disc. *)
Theorem C85_edge : forall n m, (m <= n)%nat -> (exists h, n - m = 2 * h)%nat -> zernike_rad (Z.of_nat m) (Z.of_nat n) 1 = Ok 1.
Proof. intros n m H1 H2. rewrite zernike_rad_ok by auto. now rewrite radial_edge. Qed.
(* Jones terms: the weighted sum of polynomials at the polar coordinates of (m, l). *)
Theorem C85_dde : forall ns nt na nc nk np coords coeffs index, exists out, zernike_dde ns nt na nc nk np coords coeffs index = Ok out /\
  forall s t a c co, (s < ns)%nat -> (t < nt)%nat -> (a < na)%nat -> (c < nc)%nat -> (co < nk)%nat -> exists rho phi,
    0 <= rho /\ coords 0%nat s t a c = rho * sin phi /\ coords 1%nat s t a c = rho * cos phi /\
    out s t a c co = csum np (fun p => cmul (coeffs a c co p) (ofR (zern (fst (noll (index a c co p))) (snd (noll (index a c co p))) rho phi))).
Proof. exact dde_value. Qed.
(* Chunking of sources, times, antennas, channels and correlations does not matter.  With the polynomials in
   several chunks the result is that of the first chunk alone. *)
Theorem C85_chunks : forall src times ants chans corrs np rest coords coeffs index,
  exists out, zernike_dde (list_sum src) (list_sum times) (list_sum ants) (list_sum chans) (list_sum corrs) np coords coeffs index = Ok out /\
  forall s t a c co, (s < list_sum src)%nat -> (t < list_sum times)%nat -> (a < list_sum ants)%nat -> (c < list_sum chans)%nat -> (co < list_sum corrs)%nat ->
    dask_zernike_dde src times ants chans corrs (np :: rest) coords coeffs index s t a c co = Ok (out s t a c co).
Proof. exact dde_chunks. Qed.
Theorem C85_poly_chunks_refuted : exists coords coeffs index out v,
  zernike_dde 1 1 1 1 1 2 coords coeffs index = Ok out /\ dask_zernike_dde [1%nat] [1%nat] [1%nat] [1%nat] [1%nat] [1%nat; 1%nat] coords coeffs index 0 0 0 0 0 = Ok v /\ v <> out 0%nat 0%nat 0%nat 0%nat 0%nat.
Proof. exact poly_chunks_lost. Qed.
Print Assumptions C85_index_bijective.
Print Assumptions C85_index_order.
Print Assumptions C85_value.
Print Assumptions C85_edge.
Print Assumptions C85_dde.
Print Assumptions C85_chunks.
Print Assumptions C85_poly_chunks_refuted.
Example ex_noll : map (fun j => (Z.of_nat (fst (noll j)), snd (noll j))) [0; 1; 2; 3; 4; 5; 6; 9]%nat = [(0, 0); (1, 1); (1, -1); (2, 0); (2, -2); (2, 2); (3, -1); (3, 3)]%Z.
Proof. reflexivity. Qed.
(* R_2^0 = 2 rho^2 - 1 *)
Example ex_radial : forall rho, radial 2 0 rho = 2 * rho ^ 2 - 1.
Proof. intros rho. unfold radial. cbn. ring. Qed.
Example ex_order : zernike_order 4 (-2).
Proof. split; [cbn; lia|]. exists 3%Z. reflexivity. Qed.
