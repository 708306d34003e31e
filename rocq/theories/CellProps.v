(* C99: estimating the size of image cells (gridding/util.py). *)
From Coq Require Import Reals Lra Lia.
From Verif Require Import Prelude CellModel CellSpec CellProofs.
Open Scope R_scope.

(* coordinates and wavelengths are arrays or floats, not all coordinates are zero; ny and nx are large enough, if given.  Then every coordinate at
   every wavelength is sampled: cell times coordinate in wavelengths is at most 1 / (2 factor), and for one of them exactly that. *)
Theorem C99_cell_size : forall u v wv factor ny nx uh ul vh vl w, is_largest u uh -> is_least u ul -> is_largest v vh -> is_least v vl -> is_shortest wv w ->
  0 < factor -> 0 < uh -> 0 < vh -> 0 < w -> (forall n, ny = Some n -> 2 * factor * uh <= n * ul) -> (forall n, nx = Some n -> 2 * factor * vh <= n * vl) ->
  exists cu cv, estimate_cell_size u v wv factor ny nx = Ok (Fin cu, Fin cv) /\
    (forall x l, among x u -> among l wv -> radians cu * (Rabs x / l) <= 1 / (2 * factor)) /\
    (forall x l, among x v -> among l wv -> radians cv * (Rabs x / l) <= 1 / (2 * factor)) /\
    (exists x l, among x u /\ among l wv /\ radians cu * (Rabs x / l) = 1 / (2 * factor)) /\
    (exists x l, among x v /\ among l wv /\ radians cv * (Rabs x / l) = 1 / (2 * factor)).
Proof.
  intros u v wv factor ny nx uh ul vh vl w Uh Ul Vh Vl Ws Hf Hu Hv Hw Py Px.
  destruct (estimate_rule u v wv factor ny nx uh ul vh vl w Uh Ul Vh Vl Ws Hf Hu Hv Hw) as (A & _).
  rewrite A by (destruct ny, nx; cbn; auto). destruct (radians_arcsec (cell factor uh w)) as (Eu & Ru). destruct (radians_arcsec (cell factor vh w)) as (Ev & Rv).
  rewrite Eu, Ev. do 2 eexists. split; [reflexivity |]. rewrite Ru, Rv. split; [|split; [|split]].
  - intros x l. apply (nyquist u wv factor uh w x l); assumption.
  - intros x l. apply (nyquist v wv factor vh w x l); assumption.
  - apply (reached u wv); assumption.
  - apply (reached v wv); assumption.
Qed.
(* otherwise the call is refused *)
Theorem C99_refused : forall u v wv factor ny nx uh ul vh vl w, is_largest u uh -> is_least u ul -> is_largest v vh -> is_least v vl -> is_shortest wv w ->
  0 < factor -> 0 < uh -> 0 < vh -> 0 < w -> (exists n, ny = Some n /\ n * ul < 2 * factor * uh) \/ (exists n, nx = Some n /\ n * vl < 2 * factor * vh) ->
  estimate_cell_size u v wv factor ny nx = Raise ValueError.
Proof.
  intros u v wv factor ny nx uh ul vh vl w Uh Ul Vh Vl Ws Hf Hu Hv Hw H.
  apply (estimate_rule u v wv factor ny nx uh ul vh vl w Uh Ul Vh Vl Ws Hf Hu Hv Hw). intros (P & Q).
  destruct H as [(n & -> & L)|(n & -> & L)]; cbn in P, Q; lra.
Qed.
(* the documentation asks for cell * ny at most wavelength / least coordinate: the code asks for at least *)
Theorem C99_documented_refuted : ~ (forall u v wv factor n uh ul vh vl w c c', is_largest u uh -> is_least u ul -> is_largest v vh -> is_least v vl -> is_shortest wv w ->
  0 < factor -> 0 < ul -> 0 < vl -> 0 < w -> estimate_cell_size u v wv factor (Some n) None = Ok (Fin c, Fin c') -> documented (radians c) n w ul).
Proof.
  intros H.
  assert (Lg : is_largest (Flt 1) 1) by (split; [exists 1; split; [constructor | symmetry; apply Rabs_R1] | intros x A; inversion A; subst; rewrite Rabs_R1; lra]).
  assert (Ls : is_least (Flt 1) 1) by (split; [exists 1; split; [constructor | symmetry; apply Rabs_R1] | intros x A; inversion A; subst; rewrite Rabs_R1; lra]).
  assert (Sh : is_shortest (Flt 1) 1) by (split; [constructor | intros x A; inversion A; subst; lra]).
  destruct (estimate_rule (Flt 1) (Flt 1) (Flt 1) 3 (Some 7) None 1 1 1 1 1 Lg Ls Lg Ls Sh) as (A & _); try lra.
  assert (P : passes (Some 7) 3 1 1) by (unfold passes; lra). specialize (A P I). destruct (radians_arcsec (cell 3 1 1)) as (E & R). rewrite E in A.
  specialize (H (Flt 1) (Flt 1) (Flt 1) 3 7 1 1 1 1 1 _ _ Lg Ls Lg Ls Sh ltac:(lra) ltac:(lra) ltac:(lra) ltac:(lra) A). unfold documented in H. rewrite R in H. unfold cell in H. replace (1 / (2 * 3 * 1)) with (1 / 6) in H by field. lra.
Qed.
(* a single coordinate: the image needs at least 2 factor pixels, whatever the coordinate *)
Theorem C99_single : forall x y l factor n, x <> 0 -> y <> 0 -> 0 < l -> 0 < factor ->
  (estimate_cell_size (Flt x) (Flt y) (Flt l) factor (Some n) None = Raise ValueError <-> n < 2 * factor).
Proof.
  intros x y l factor n Hx Hy Hl Hf.
  assert (G : forall z, z <> 0 -> is_largest (Flt z) (Rabs z) /\ is_least (Flt z) (Rabs z) /\ 0 < Rabs z).
  { intros z Hz. split; [|split; [|apply Rabs_pos_lt; exact Hz]]; (split; [exists z; split; [constructor | reflexivity] | intros t A; inversion A; subst; apply Rle_refl]). }
  destruct (G x Hx) as (Lx & Sx & Px). destruct (G y Hy) as (Ly & Sy & Py).
  assert (Sh : is_shortest (Flt l) l) by (split; [constructor | intros t A; inversion A; subst; apply Rle_refl]).
  destruct (estimate_rule (Flt x) (Flt y) (Flt l) factor (Some n) None _ _ _ _ l Lx Sx Ly Sy Sh Hf Px Py Hl) as (A & B). cbn [passes] in A, B. split.
  - intros E. destruct (Rlt_dec n (2 * factor)) as [|N]; [assumption |]. rewrite A in E; [discriminate | | exact I].
    apply Rmult_le_compat_r; lra.
  - intros L. apply B. intros (P & _). apply Rmult_lt_compat_r with (r := Rabs x) in L; [lra | exact Px].
Qed.
(* zero coordinates: an exception for floats, an infinite cell for arrays of zeros, a refusal for arrays that contain a zero if the size is given *)
Theorem C99_zero_float : forall x y l factor ny nx, 0 < l -> x = 0 \/ y = 0 -> estimate_cell_size (Flt x) (Flt y) (Flt l) factor ny nx = Raise ZeroDivision.
Proof. exact zero_float. Qed.
Theorem C99_zero_array : forall n a v wv factor ny vh vl w, (0 < n)%nat -> (forall i, (i < n)%nat -> a i = 0) -> is_largest v vh -> is_least v vl -> is_shortest wv w ->
  0 < factor -> 0 < vh -> 0 < w -> (forall m, ny = Some m -> 0 <= m) -> exists c, estimate_cell_size (Arr n a) v wv factor ny None = Ok (PInf, Fin c).
Proof. intros n a v wv factor ny vh vl w A B C D E F G H J. eexists. exact (zero_array n a v wv factor ny vh vl w A B C D E F G H J). Qed.
(* integers, lists and NumPy floats of single precision are refused *)
Theorem C99_types : forall u v wv factor ny nx hi lo hi' lo', is_largest u hi -> is_least u lo -> is_largest v hi' -> is_least v lo' ->
  estimate_cell_size Other v wv factor ny nx = Raise TypeError /\ estimate_cell_size u Other wv factor ny nx = Raise TypeError /\
  estimate_cell_size u v Other factor ny nx = Raise TypeError.
Proof.
  intros u v wv factor ny nx hi lo hi' lo' A B C D. destruct (extremes_ok u hi lo A B) as (un & Eu). destruct (extremes_ok v hi' lo' C D) as (vn & Ev).
  unfold estimate_cell_size. rewrite Eu, Ev. repeat split; reflexivity.
Qed.
(* an array that contains a zero *)
Corollary refused_zero : forall a v wv factor n uh vh vl w, is_largest a uh -> is_least a 0 -> is_largest v vh -> is_least v vl -> is_shortest wv w ->
  0 < factor -> 0 < uh -> 0 < vh -> 0 < w -> estimate_cell_size a v wv factor (Some n) None = Raise ValueError.
Proof.
  intros. eapply C99_refused; eauto. left. exists n. split; [reflexivity |]. rewrite Rmult_0_r. apply Rmult_lt_0_compat; lra.
Qed.

Print Assumptions C99_cell_size.
Print Assumptions C99_refused.
Print Assumptions C99_documented_refuted.
Print Assumptions C99_single.
Print Assumptions C99_zero_float.
Print Assumptions C99_zero_array.
Print Assumptions C99_types.

(* two baselines, two wavelengths; u = 100 and -200, wavelengths 0.2 and 0.3; 18 pixels are enough, 5 are not *)
Definition ex_u : arg_num := Arr 2 (fun i => match i with O => 100 | _ => -200 end).
Definition ex_w : arg_num := Arr 2 (fun i => match i with O => 2 / 10 | _ => 3 / 10 end).
Example C99_ex_extremes : is_largest ex_u 200 /\ is_least ex_u 100 /\ is_shortest ex_w (2 / 10).
Proof.
  split; [|split].
  - split; [exists (-200); split; [apply (among_arr _ _ _ 1%nat); [lia | reflexivity] | rewrite Rabs_left by lra; lra] |].
    intros x A. inversion A as [? ? i Hi Ei |]; subst. destruct i; [rewrite Rabs_right; lra | rewrite Rabs_left; lra].
  - split; [exists 100; split; [apply (among_arr _ _ _ 0%nat); [lia | reflexivity] | rewrite Rabs_right by lra; lra] |].
    intros x A. inversion A as [? ? i Hi Ei |]; subst. destruct i; [rewrite Rabs_right; lra | rewrite Rabs_left; lra].
  - split; [apply (among_arr _ _ _ 0%nat); [lia | reflexivity] |]. intros x A. inversion A as [? ? i Hi Ei |]; subst. destruct i; lra.
Qed.
Example C99_ex_accepted : exists cu cv, estimate_cell_size ex_u ex_u ex_w 3 (Some 18) (Some 18) = Ok (Fin cu, Fin cv) /\
  radians cu * (200 / (2 / 10)) <= 1 / 6.
Proof.
  destruct C99_ex_extremes as (A & B & C).
  destruct (C99_cell_size ex_u ex_u ex_w 3 (Some 18) (Some 18) 200 100 200 100 (2 / 10) A B A B C) as (cu & cv & E & N & _); try lra;
    try (intros n Hn; injection Hn as <-; lra).
  exists cu, cv. split; [exact E |]. replace (1 / 6) with (1 / (2 * 3)) by lra.
  replace 200 with (Rabs (-200)) by (rewrite Rabs_left; lra). apply N; [apply (among_arr _ _ _ 1%nat); [lia | reflexivity] | apply (among_arr _ _ _ 0%nat); [lia | reflexivity]].
Qed.
Example C99_ex_refused : estimate_cell_size ex_u ex_u ex_w 3 (Some 5) None = Raise ValueError.
Proof.
  destruct C99_ex_extremes as (A & B & C). eapply C99_refused; eauto; try lra. left. exists 5. split; [reflexivity | lra].
Qed.
(* an empty array has no extremes *)
Theorem C99_empty : forall a u v wv factor ny nx hi lo hi' lo', is_largest u hi -> is_least u lo -> is_largest v hi' -> is_least v lo' ->
  estimate_cell_size (Arr 0 a) v wv factor ny nx = Raise ValueError /\ estimate_cell_size u (Arr 0 a) wv factor ny nx = Raise ValueError /\
  estimate_cell_size u v (Arr 0 a) factor ny nx = Raise ValueError.
Proof.
  intros a u v wv factor ny nx hi lo hi' lo' A B C D. destruct (extremes_ok u hi lo A B) as (un & Eu). destruct (extremes_ok v hi' lo' C D) as (vn & Ev).
  unfold estimate_cell_size. rewrite Eu, Ev. repeat split; reflexivity.
Qed.
(* a wavelength of zero in an array: cells of size zero, no exception, even when the coordinates are floats; as a float, an exception *)
Theorem C99_zero_wavelength : forall x y wv factor, x <> 0 -> y <> 0 -> 0 < factor -> is_shortest wv 0 ->
  estimate_cell_size (Flt x) (Flt y) wv factor None None = match wv with Arr _ _ => Ok (Fin 0, Fin 0) | _ => Raise ZeroDivision end.
Proof.
  intros x y wv factor Hx Hy Hf Hs.
  assert (Px := Rabs_pos_lt x Hx). assert (Py := Rabs_pos_lt y Hy).
  unfold estimate_cell_size. destruct (smallest_ok wv 0 Hs) as (b & Ew). cbn [extremes bind]. rewrite Ew. cbn [bind].
  assert (Eb : b = match wv with Arr _ _ => true | _ => false end).
  { destruct wv as [[|n] a|l|]; cbn in Ew; try discriminate; injection Ew as <- _; reflexivity. }
  assert (Cell : ext_div true (Fin 1) (ext_mul (Fin (2 * factor)) PInf) = Ok (Fin 0)).
  { cbn. destruct (Req_EM_T (2 * factor) 0); [lra|]. destruct (Rlt_dec 0 (2 * factor)); [|lra]. reflexivity. }
  assert (Z : arcsec (Fin 0) = Fin 0) by (cbn; f_equal; ring).
  destruct wv as [n a|l|]; subst b; cbn [orb].
  - assert (Dv : forall z, 0 < z -> ext_div true (Fin z) (Fin 0) = Ok PInf).
    { intros z Hz. cbn. destruct (Req_EM_T 0 0); [|lra]. destruct (Req_EM_T z 0); [lra|]. destruct (Rlt_dec 0 z); [reflexivity|lra]. }
    rewrite !Dv by assumption. cbn [bind]. rewrite Cell. cbn [bind check]. rewrite Z. reflexivity.
  - cbn [ext_div]. destruct (Req_EM_T 0 0); [reflexivity|lra].
  - cbn in Ew. discriminate.
Qed.
Example C99_zero_wavelength_case : is_shortest (Arr 2 (fun i => INR i)) 0.
Proof. split; [apply (among_arr _ _ _ 0%nat); [lia|reflexivity]|]. intros x A. inversion A as [? ? i Hi Ei|]; subst. apply pos_INR. Qed.
Print Assumptions C99_empty.
Print Assumptions C99_zero_wavelength.
