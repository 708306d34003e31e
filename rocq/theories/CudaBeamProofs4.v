From Coq Require Import Reals Lra.
From Verif Require Import Prelude PreludeFacts LoopFacts CRing CplxR UtilModel BeamModel BeamSpec BeamProofs BeamProofs2 BeamProofs3 DaskRimeModel DaskRimeProofs CohSpec
  CudaModel CudaSpec CudaProofs CudaRimeModel CudaRimeProofs CudaBeamModel CudaBeamSpec CudaBeamProofs CudaBeamProofs2 CudaBeamProofs3.
Open Scope nat_scope.

Definition rows (bt : beam_type) : nat := match bt with Complex64 => 32 | _ => 16 end.
Definition args_of b ncorr (ext : arr2 R) nsrc (lm : arr2 R) ntime na (pa : arr2 R) (pe : nat -> nat -> nat -> arr R) (asc : arr3 R) nchan shift (fd : name -> R) : beam_args :=
  {| a_beam := cube_memory b ncorr;
     a_lw := b_lw b; a_mh := b_mh b; a_nud := b_nud b;
     a_ext := memory [2; 2] (fun i => match i with [r; c] => ext r c | _ => 0%R end);
     a_lm := memory [nsrc; 2] (fun i => match i with [s; c] => lm s c | _ => 0%R end);
     a_pa := memory [ntime; na] (fun i => match i with [t; p] => pa t p | _ => 0%R end);
     a_pe := memory [ntime; na; nchan; 2] (fun i => match i with [t; p; f; c] => pe t p f c | _ => 0%R end);
     a_as := memory [na; nchan; 2] (fun i => match i with [p; f; c] => asc p f c | _ => 0%R end);
     a_freq_data := fun c f => fd [c; f];
     a_nsrc := nsrc; a_ntime := ntime; a_na := na; a_nchan := nchan; a_ncorr := ncorr; a_shift := shift |}.
Definition dim (n b : nat) : nat := Nat.max 1 (Z.to_nat ((Z.of_nat n + Z.of_nat b - 1) / Z.of_nat b)).
Lemma limit_128 : beam_nud_limit = 128. Proof. reflexivity. Qed.
Lemma launch lockstep bt b ncorr ext nmap g nsrc lm ntime na pa pe asc nchan fr : bt <> NotComplex -> 2 <= b_lw b -> 2 <= b_mh b -> 2 <= b_nud b < 128 ->
  ncorr = 1 \/ ncorr = 2 \/ ncorr = 4 -> exists shift, ncorr = 2 ^ shift /\
  cuda_beam_cube_dde lockstep bt b ncorr ext nmap g nsrc lm ntime na pa pe asc nchan fr =
  Ok (interp_kernel (2 ^ 10) (dim nchan (2 ^ 10)) beam_nud_limit nmap nchan g fr,
      fun fd => beam_kernel lockstep 32 (rows bt) (dim (nchan * ncorr) 32) (dim na (rows bt)) (dim ntime 1) (args_of b ncorr ext nsrc lm ntime na pa pe asc nchan shift fd)).
Proof.
  intros HT Hl Hm Hn HC. assert (S : exists shift, ncorr = 2 ^ shift /\ corr_shifter ncorr = Some shift).
  { destruct HC as [->|[->| ->]]; [exists 0|exists 1|exists 2]; split; reflexivity. }
  destruct S as (shift & E & S). exists shift. split; auto. unfold cuda_beam_cube_dde, generate_main. rewrite limit_128.
  rewrite (proj2 (Nat.leb_gt _ _)) by lia. rewrite !(proj2 (Nat.ltb_ge _ _)) by lia. cbn [orb]. rewrite S.
  set (big := 2 ^ 10). assert (big <> 0) by (apply Nat.pow_nonzero; lia). clearbody big.
  unfold grids. cbn [length Nat.eqb negb grids_loop]. rewrite (proj2 (Z.eqb_neq (Z.of_nat big) 0)) by lia.
  destruct bt; [| |contradiction]; reflexivity.
Qed.
Lemma dim_pos n b : 0 < dim n b. Proof. unfold dim. lia. Qed.
Lemma dim_1 n : n <= dim n 1.
Proof. unfold dim. rewrite Z.div_1_r. lia. Qed.

Section Launch.
  Variables (b : cube) (ncorr : nat) (ext : arr2 R) (nsrc : nat) (lm : arr2 R) (ntime na : nat) (pa : arr2 R)
    (pe : nat -> nat -> nat -> arr R) (asc : arr3 R) (nchan shift : nat) (fd : name -> R).
  Hypothesis Hl : 2 <= b_lw b. Hypothesis Hm : 2 <= b_mh b. Hypothesis Hc : ncorr = 2 ^ shift.
  Let A := args_of b ncorr ext nsrc lm ntime na pa pe asc nchan shift fd.
  (* the value that a thread computes, when it sees these extents and this frequency data *)
  Lemma seen_point s t p f c el eu ml mu sc w k v : s < nsrc -> t < ntime -> p < na -> f < nchan -> c < ncorr ->
    fd [0; f] = sc -> fd [1; f] = w -> fd [2; f] = IZR (Z.of_nat k) -> S k < b_nud b ->
    beam_point b el eu ml mu (lm s 0) (lm s 1) (sin (pa t p)) (cos (pa t p)) (pe t p f 0) (pe t p f 1) (asc p f 0) (asc p f 1) (sc, w, Z.of_nat k) = Ok v ->
    forall e, e 0 = el -> e 2 = ml ->
    seen_value A e (IZR (Z.of_nat (b_lw b) - 1) / (eu - el)) (IZR (Z.of_nat (b_mh b) - 1) / (mu - ml)) s t p (f * ncorr + c) = v c.
  Proof.
    intros Hs Ht Hp Hf Hc' F0 F1 F2 Hk V e E0 E2. unfold seen_value.
    cbn [A args_of a_beam a_lw a_mh a_nud a_ext a_lm a_pa a_pe a_as a_freq_data a_nsrc a_ntime a_na a_nchan a_ncorr a_shift].
    rewrite (pack_div ncorr), (pack_mod ncorr) by auto. rewrite F0, F1, F2, E0, E2.
    rewrite (memory_at [ntime; na] _ [t; p]); [|insides|cbn [ravel prodn]; ring].
    rewrite (memory_at [ntime; na; nchan; 2] _ [t; p; f; 0] (2 * _)); [|insides|cbn [ravel prodn]; ring].
    rewrite (memory_at [ntime; na; nchan; 2] _ [t; p; f; 1] (2 * _ + 1)); [|insides|cbn [ravel prodn]; ring].
    rewrite (memory_at [na; nchan; 2] _ [p; f; 0] (2 * _)); [|insides|cbn [ravel prodn]; ring].
    rewrite (memory_at [na; nchan; 2] _ [p; f; 1] (2 * _ + 1)); [|insides|cbn [ravel prodn]; ring].
    rewrite (memory_at [nsrc; 2] _ [s; 0] (2 * _)); [|insides|cbn [ravel prodn]; ring].
    rewrite (memory_at [nsrc; 2] _ [s; 1] (2 * _ + 1)); [|insides|cbn [ravel prodn]; ring].
    apply (thread_value_ok b ncorr c el eu ml mu); auto.
  Qed.
  Lemma beam_seen_out bdx bdy gx gy sl sm g v : 
    (forall s t p f c, s < nsrc -> t < ntime -> p < na -> f < nchan -> c < ncorr ->
       let blk := block_at bdx bdy gx gy t p (f * ncorr + c) in
       seen_value A (ext_seen bdx gx A g blk) (sl blk) (sm blk) s t p (f * ncorr + c) = v s t p f c) ->
    forall x, beam_seen bdx bdy gx gy A sl sm g x = beam_out nsrc ntime na nchan ncorr v x.
  Proof.
    intros H x. unfold beam_seen, beam_out. destruct x as [|i [|]]; auto.
    cbn [A args_of a_nsrc a_ntime a_na a_nchan a_ncorr].
    assert (E : prodn [nsrc; ntime; na; nchan * ncorr] = prodn [nsrc; ntime; na; nchan; ncorr]) by (cbn [prodn]; ring). rewrite <- E.
    destruct (Nat.ltb_spec i (prodn [nsrc; ntime; na; nchan * ncorr])) as [L|]; auto.
    assert (NP : 0 < ncorr) by (rewrite Hc; apply Nat.neq_0_lt_0, Nat.pow_nonzero; lia).
    cbn [prodn] in L. rewrite Nat.mul_1_r in L.
    set (ncc := nchan * ncorr) in *.
    assert (Z1 : 0 < ncc) by nia. assert (Z2 : 0 < na) by nia. assert (Z3 : 0 < ntime) by nia. assert (Z4 : 0 < na * ncc) by nia. assert (Z5 : 0 < ntime * (na * ncc)) by nia.
    set (s := i / (ntime * (na * ncc))). set (i1 := i mod (ntime * (na * ncc))).
    set (t := i1 / (na * ncc)). set (i2 := i1 mod (na * ncc)). set (p := i2 / ncc). set (cc := i2 mod ncc). set (f := cc / ncorr). set (c := cc mod ncorr).
    assert (I0 : i = ntime * (na * ncc) * s + i1) by (apply Nat.div_mod; lia).
    assert (I1 : i1 = na * ncc * t + i2) by (apply Nat.div_mod; lia). assert (I2 : i2 = ncc * p + cc) by (apply Nat.div_mod; lia).
    assert (I3 : cc = f * ncorr + c) by (rewrite (Nat.mul_comm f); apply Nat.div_mod; lia).
    assert (L1 : i1 < ntime * (na * ncc)) by (apply Nat.mod_upper_bound; lia).
    assert (L2 : i2 < na * ncc) by (apply Nat.mod_upper_bound; lia). assert (Lc : cc < ncc) by (apply Nat.mod_upper_bound; lia).
    assert (Ls : s < nsrc) by (apply Nat.div_lt_upper_bound; nia).
    assert (Lt : t < ntime) by (apply Nat.div_lt_upper_bound; nia). assert (Lp : p < na) by (apply Nat.div_lt_upper_bound; nia).
    assert (Lf : f < nchan) by (apply Nat.div_lt_upper_bound; unfold ncc in *; nia). assert (Lk : c < ncorr) by (apply Nat.mod_upper_bound; lia).
    clearbody s i1 t i2 p cc f c.
    assert (R4 : i = ravel [nsrc; ntime; na; ncc] [s; t; p; cc]) by (cbn [ravel prodn]; rewrite I0, I1, I2; ring).
    assert (R5 : i = ravel [nsrc; ntime; na; nchan; ncorr] [s; t; p; f; c]) by (cbn [ravel prodn]; rewrite I0, I1, I2, I3; unfold ncc; ring).
    rewrite R4 at 1. rewrite unravel_ravel by insides. rewrite R5. rewrite unravel_ravel by insides. cbv zeta. rewrite I3. f_equal. now apply H.
  Qed.
End Launch.

Lemma last_row_ok n b i : last_row_loads n -> b * 32 < n -> i < 4 -> b * 32 + i < n.
Proof.
  intros L H I. assert (D := Nat.div_mod n 32 ltac:(lia)). assert (M := Nat.mod_upper_bound n 32 ltac:(lia)). unfold last_row_loads in L.
  set (q := n / 32) in *. set (m := n mod 32) in *. clearbody q m. nia.
Qed.
Theorem beam_gpu bt b ncorr ext g nsrc lm ntime na pa pe asc nchan fr : bt <> NotComplex -> 2 <= b_lw b -> 2 <= b_mh b -> 2 <= b_nud b < 128 ->
  ncorr = 1 \/ ncorr = 2 \/ ncorr = 4 -> nchan <= 1024 -> last_row_loads (nchan * ncorr) ->
  exists k1 k2 out, cuda_beam_cube_dde true bt b ncorr ext (b_nud b) g nsrc lm ntime na pa pe asc nchan fr = Ok (k1, k2) /\
    beam_cube_dde b ext (b_nud b) g nsrc lm ntime na pa pe asc nchan fr = Ok out /\
    computes k1 (freq_out (b_nud b) nchan (fun _ => g) fr) /\
    forall h o n s, runs k1 n (init h o) s -> finished k1 s -> computes (k2 (st_out s)) (beam_out nsrc ntime na nchan ncorr out).
Proof.
  intros HT Hl Hm Hn HC Hf HR. destruct (launch true bt b ncorr ext (b_nud b) g nsrc lm ntime na pa pe asc nchan fr HT Hl Hm Hn HC) as (shift & Hs & E).
  destruct (dde_any b ext g nsrc lm ntime na pa pe asc nchan fr Hl Hm) as (out & D & V); [lia|].
  rewrite E. eexists _, _, out. split; [reflexivity|]. split; [exact D|].
  assert (B10 : 2 ^ 10 = 1024) by reflexivity. rewrite B10.
  assert (C1 : computes (interp_kernel 1024 (dim nchan 1024) beam_nud_limit (b_nud b) nchan g fr) (freq_out (b_nud b) nchan (fun _ => g) fr)).
  { intros h o. eapply leaves_ext; [|apply freq_leaves].
    - intros x. unfold freq_out. destruct x as [|c [|f [|]]]; auto. destruct (Nat.ltb_spec f nchan); [|now rewrite !Bool.andb_false_r].
      rewrite Nat.div_small by lia. reflexivity.
    - lia.
    - rewrite limit_128. lia.
    - rewrite limit_128. lia.
    - intros c Hc. apply cover_dim; [lia|auto]. }
  split; [exact C1|]. intros h o n s Rn Fi h' o'.
  destruct (C1 h o) as [_ S]. destruct (S n s Rn) as [_ F]. specialize (F Fi). clear S Rn Fi C1.
  assert (HB : 0 < rows bt) by (destruct bt; cbn; lia).
  assert (NC : 0 < ncorr) by lia.
  eapply leaves_ext; [|apply beam_leaves]; cbn [args_of a_ncorr a_nchan a_na a_ntime a_shift]; auto using dim_pos, dim_1; try lia.
  2:{ destruct HC as [->|[->| ->]]; [exists 32|exists 16|exists 8]; reflexivity. }
  2:{ intros c Hc. apply cover_dim; [lia|auto]. }
  2:{ intros c Hc. apply cover_dim; auto. }
  apply beam_seen_out; auto. intros s' t p f c Ls Lt Lp Lf Lc blk.
  assert (V' := V s' t p f Ls Lt Lp Lf). unfold point in V'.
  destruct (interp_plane (b_nud b) g (fr f) ltac:(lia)) as (sc & w & kk & EI & Hk). rewrite EI in V'.
  assert (FD : forall c0, c0 < 3 -> st_out s [c0; f] = match c0 with 0 => sc | 1 => w | _ => IZR (Z.of_nat kk) end).
  { intros c0 H0. rewrite F. unfold freq_out. rewrite (proj2 (Nat.ltb_lt c0 3)), (proj2 (Nat.ltb_lt f nchan)) by auto. cbn [andb]. now rewrite EI. }
  assert (CC : f * ncorr + c < nchan * ncorr) by nia.
  assert (BX : blk mod dim (nchan * ncorr) 32 = (f * ncorr + c) / 32).
  { unfold blk, block_at. apply pack_mod. now apply cover_dim; [lia|]. }
  assert (ES : forall i, i < 4 -> ext_seen 32 (dim (nchan * ncorr) 32) (args_of b ncorr ext nsrc lm ntime na pa pe asc nchan shift (st_out s)) h' blk i =
                match i with 0 => ext 0 0 | 1 => ext 0 1 | 2 => ext 1 0 | _ => ext 1 1 end).
  { intros i Hi. unfold ext_seen. rewrite BX. cbn [args_of a_nchan a_ncorr a_ext]. rewrite (proj2 (Nat.ltb_lt _ _)); [destruct i as [|[|[|[|]]]]; try reflexivity; lia|].
    apply last_row_ok; auto. assert (Q := Nat.mul_div_le (f * ncorr + c) 32 ltac:(lia)). lia. }
  unfold scale_l, scale_m. rewrite !ES by lia.
  apply (seen_point b ncorr ext nsrc lm ntime na pa pe asc nchan shift (st_out s) Hl Hm Hs s' t p f c _ _ _ _ sc w kk); auto.
  - apply (FD 0). lia.
  - apply (FD 1). lia.
  - apply (FD 2). lia.
  - exact (ES 0 ltac:(lia)).
  - exact (ES 2 ltac:(lia)).
Qed.
