From Coq Require Import String Reals Lra.
From Verif Require Import Prelude PreludeFacts CRing CplxR LoopFacts StokesGridModel StokesGridSpec StokesGridProofs GridModel GridSpec GridProofs.
Close Scope R_scope.
Open Scope nat_scope.

Lemma ofR_add x y : cadd (ofR x) (ofR y) = ofR (x + y)%R.
Proof. unfold ofR. apply injective_projections; cbn; ring. Qed.
Lemma ofR_mul x y : cmul (ofR x) (ofR y) = ofR (x * y)%R.
Proof. unfold ofR. apply injective_projections; cbn; ring. Qed.
Lemma ofR_csum n (f : nat -> R) : csum n (fun i => ofR (f i)) = ofR (csum (K := RR) n f).
Proof. induction n as [|n IH]; [reflexivity|]. cbn [csum]. rewrite IH. apply ofR_add. Qed.
Lemma csum_prod n m (f g : nat -> R) (s : RC) :
  csum n (fun i => csum m (fun j => cmul (ofR (f i * g j)%R) s)) = cmul (ofR (csum (K := RR) n f * csum (K := RR) m g)%R) s.
Proof.
  rewrite <- ofR_mul, <- !ofR_csum. rewrite <- (csum_mul_r RC_laws), <- (csum_mul_r RC_laws). apply csum_ext. intros i _.
  rewrite <- (csum_mul_l RC_laws), <- (csum_mul_r RC_laws). apply csum_ext. intros j _. now rewrite ofR_mul.
Qed.
Lemma csum_prod_R n m (f g : nat -> R) : csum (K := RR) n (fun i => csum (K := RR) m (fun j => (f i * g j)%R)) = (csum (K := RR) n f * csum (K := RR) m g)%R.
Proof.
  change (csum (K := RR) n f * csum (K := RR) m g)%R with (cmul (csum (K := RR) n f) (csum (K := RR) m g)). rewrite <- (csum_mul_r (K := RR) RR_laws). apply (csum_ext (K := RR)). intros i _. apply (csum_mul_l (K := RR) RR_laws).
Qed.

Section Conv.
  Variables (index : kernel -> Z -> nat -> Z) (su sv : R) (npix : nat) (k : kernel) (ku kv : arr R).
  Let W := width k.
  Let du := discrete npix su.
  Let dv := discrete npix sv.
  Hypothesis read_u : forall t, t < W -> getitem (nsamples k) (samples k) (index k (fraction npix su (oversampling k)) t) = Ok (ku t).
  Hypothesis read_v : forall t, t < W -> getitem (nsamples k) (samples k) (index k (fraction npix sv (oversampling k)) t) = Ok (kv t).
  (* tap t of an axis when it falls on cell y *)
  Definition hit (d : Z) (kk : arr R) (y t : nat) : R :=
    let g := (d + Z.of_nat t - Z.of_nat (W / 2))%Z in if inside npix g && (Z.to_nat g =? y) then kk t else 0%R.
  Lemma scatter_form grid vis S : exists g' cw, convolve_scatter index su sv npix grid vis S k = Ok (g', cw) /\
    (forall y x, g' y x = cadd (grid y x) (cmul (ofR (csum (K := RR) W (hit dv kv y) * csum (K := RR) W (hit du ku x))%R) (S vis))) /\
    cw = (csum (K := RR) W kv * csum (K := RR) W ku)%R.
  Proof.
    unfold convolve_scatter. fold W du dv.
    set (inner := fun tv tu (gc : arr2 RC * R) =>
      let gv := (dv + Z.of_nat tv - Z.of_nat (W / 2))%Z in let gu := (du + Z.of_nat tu - Z.of_nat (W / 2))%Z in
      let grid := fst gc in
      (if inside npix gv && inside npix gu then upd2 grid (Z.to_nat gv) (Z.to_nat gu) (cadd (grid (Z.to_nat gv) (Z.to_nat gu)) (cmul (ofR (kv tv * ku tu)%R) (S vis))) else grid,
       (snd gc + kv tv * ku tu)%R)).
    assert (E : forall gc tv, tv < W -> (do! conv_v <- getitem (nsamples k) (samples k) (index k (fraction npix sv (oversampling k)) tv);
       let grid_v_lookup := (dv + Z.of_nat tv - Z.of_nat (W / 2))%Z in
       forM W (fun tu gc => do! conv_u <- getitem (nsamples k) (samples k) (index k (fraction npix su (oversampling k)) tu);
        let grid_u_lookup := (du + Z.of_nat tu - Z.of_nat (W / 2))%Z in
        let grid := fst gc in
        let grid := if inside npix grid_v_lookup && inside npix grid_u_lookup then upd2 grid (Z.to_nat grid_v_lookup) (Z.to_nat grid_u_lookup)
               (cadd (grid (Z.to_nat grid_v_lookup) (Z.to_nat grid_u_lookup)) (cmul (ofR (conv_v * conv_u)%R) (S vis))) else grid in
        Ok (grid, (snd gc + conv_v * conv_u)%R)) gc) = Ok (for_ W (inner tv) gc)).
    { intros gc tv Htv. rewrite read_v by exact Htv. cbn [bind]. apply forM_pure. intros tu s Htu. rewrite read_u by exact Htu. reflexivity. }
    rewrite (forM_pure W _ (fun tv gc => for_ W (inner tv) gc)). 2: { intros tv s Htv. apply E, Htv. }
    match goal with |- context [for_ W ?b (grid, 0%R)] => set (r := for_ W b (grid, 0%R)) end.
    exists (fst r), (snd r). split; [now destruct r|]. split.
    - intros y x. unfold r. rewrite (for_csum RC_laws (fun gc : arr2 RC * R => fst gc y x) (fun tv => csum W (fun tu => cmul (ofR (hit dv kv y tv * hit du ku x tu)%R) (S vis)))).
      + cbn [fst]. now rewrite csum_prod.
      + intros tv s Htv. apply (for_csum RC_laws (fun gc : arr2 RC * R => fst gc y x)). intros tu s' Htu. unfold inner. cbn [fst]. unfold hit.
        destruct (inside npix (dv + Z.of_nat tv - Z.of_nat (W / 2))); cbn [andb].
        2: { apply injective_projections; cbn; ring. }
        destruct (inside npix (du + Z.of_nat tu - Z.of_nat (W / 2))); cbn [andb].
        2: { rewrite Rmult_0_r. apply injective_projections; cbn; ring. }
        unfold upd2. rewrite (Nat.eqb_sym y), (Nat.eqb_sym x).
        destruct (Nat.eqb_spec (Z.to_nat (dv + Z.of_nat tv - Z.of_nat (W / 2))) y) as [->|]; cbn [andb].
        2: { apply injective_projections; cbn; ring. }
        destruct (Nat.eqb_spec (Z.to_nat (du + Z.of_nat tu - Z.of_nat (W / 2))) x) as [->|]; cbn [andb]; [reflexivity|].
        rewrite Rmult_0_r. apply injective_projections; cbn; ring.
    - unfold r. rewrite (for_csum RR_laws (fun gc : arr2 RC * R => snd gc : RR) (fun tv => csum (K := RR) W (fun tu => (kv tv * ku tu)%R))).
      + cbn [snd]. rewrite csum_prod_R. apply Rplus_0_l.
      + intros tv s Htv. apply (for_csum RR_laws (fun gc : arr2 RC * R => snd gc : RR)). intros tu s' Htu. reflexivity.
  Qed.
  (* gathering: what reaches each correlation when a conversion adds a multiple of the value to it *)
  Variables (to_corr : RC -> arr RC -> arr RC) (coef : nat -> RC).
  Hypothesis corr_at : forall z out i, to_corr z out i = cadd (out i) (cmul (coef i) z).
  Lemma gather_form grid vis : exists v', convolve_gather index su sv npix grid vis to_corr k = Ok v' /\
    forall i, v' i = cmul (cadd (vis i) (cmul (coef i) (csum npix (fun y => csum npix (fun x => cmul (ofR (csum (K := RR) W (hit dv kv y) * csum (K := RR) W (hit du ku x))%R) (grid y x))))))
      (ofR (/ (csum (K := RR) npix (fun y => csum (K := RR) W (hit dv kv y)) * csum (K := RR) npix (fun x => csum (K := RR) W (hit du ku x)) + 1 / 100000000))%R).
  Proof.
    unfold convolve_gather. fold W du dv.
    set (gv := fun tv => (dv + Z.of_nat tv - Z.of_nat (W / 2))%Z). set (gu := fun tu => (du + Z.of_nat tu - Z.of_nat (W / 2))%Z).
    set (inner := fun tv tu (vc : arr RC * R) =>
      if inside npix (gv tv) && inside npix (gu tu)
      then (to_corr (cmul (cmul (grid (Z.to_nat (gv tv)) (Z.to_nat (gu tu))) (ofR (kv tv))) (ofR (ku tu))) (fst vc), (snd vc + kv tv * ku tu)%R) else vc).
    rewrite (forM_pure W _ (fun tv gc => for_ W (inner tv) gc)).
    2: { intros tv s Htv. rewrite read_v by exact Htv. cbn [bind]. apply forM_pure. intros tu s' Htu. rewrite read_u by exact Htu. reflexivity. }
    match goal with |- context [for_ W ?b (vis, 0%R)] => set (r := for_ W b (vis, 0%R)) end.
    assert (Hw : snd r = (csum (K := RR) npix (fun y => csum (K := RR) W (hit dv kv y)) * csum (K := RR) npix (fun x => csum (K := RR) W (hit du ku x)))%R).
    { set (iv := fun tv => if inside npix (gv tv) then kv tv else 0%R). set (iu := fun tu => if inside npix (gu tu) then ku tu else 0%R).
      assert (X : forall d kk, csum (K := RR) npix (fun y => csum (K := RR) W (hit d kk y)) = csum (K := RR) W (fun t => if inside npix (d + Z.of_nat t - Z.of_nat (W / 2)) then kk t else 0%R)).
      { intros d kk. rewrite (csum_swap (K := RR) RR_laws). apply (csum_ext (K := RR)). intros t Ht. unfold hit. cbv zeta.
        destruct (inside npix (d + Z.of_nat t - Z.of_nat (W / 2))) eqn:I; cbn [andb]; [|apply (csum_0 (K := RR) RR_laws)].
        apply andb_prop in I. destruct I as (I1 & I2). apply Z.leb_le in I1. apply Z.ltb_lt in I2.
        rewrite (csum_only (K := RR) RR_laws npix (Z.to_nat (d + Z.of_nat t - Z.of_nat (W / 2)))); [now rewrite Nat.eqb_refl|lia|].
        intros i Hi Hne. destruct (Nat.eqb_spec (Z.to_nat (d + Z.of_nat t - Z.of_nat (W / 2))) i); [congruence|reflexivity]. }
      rewrite !X. fold gv gu. unfold r. rewrite (for_csum RR_laws (fun vc : arr RC * R => snd vc : RR) (fun tv => csum (K := RR) W (fun tu => (iv tv * iu tu)%R))).
      - cbn [snd]. rewrite csum_prod_R. apply Rplus_0_l.
      - intros tv s Htv. apply (for_csum RR_laws (fun gc : arr RC * R => snd gc : RR)). intros tu s' Htu. unfold inner, iv, iu.
        destruct (inside npix (gv tv)); cbn [andb]; [|cbn; ring]. destruct (inside npix (gu tu)); cbn; [reflexivity|ring]. }
    assert (Hv : forall i, fst r i = cadd (vis i) (cmul (coef i) (csum npix (fun y => csum npix (fun x => cmul (ofR (csum (K := RR) W (hit dv kv y) * csum (K := RR) W (hit du ku x))%R) (grid y x)))))).
    { intros i.
      assert (X : csum npix (fun y => csum npix (fun x => cmul (ofR (csum (K := RR) W (hit dv kv y) * csum (K := RR) W (hit du ku x))%R) (grid y x))) =
        csum W (fun tv => csum W (fun tu => if inside npix (gv tv) && inside npix (gu tu) then cmul (ofR (kv tv * ku tu)%R) (grid (Z.to_nat (gv tv)) (Z.to_nat (gu tu))) else c0))).
      { transitivity (csum W (fun tv => csum W (fun tu => csum npix (fun y => csum npix (fun x => cmul (ofR (hit dv kv y tv * hit du ku x tu)%R) (grid y x)))))).
        - transitivity (csum npix (fun y => csum npix (fun x => csum W (fun tv => csum W (fun tu => cmul (ofR (hit dv kv y tv * hit du ku x tu)%R) (grid y x)))))).
          + apply csum_ext. intros y _. apply csum_ext. intros x _. now rewrite csum_prod.
          + transitivity (csum npix (fun y => csum W (fun tv => csum npix (fun x => csum W (fun tu => cmul (ofR (hit dv kv y tv * hit du ku x tu)%R) (grid y x)))))).
            { apply csum_ext. intros y _. apply (csum_swap RC_laws npix W (fun x tv => csum W (fun tu => cmul (ofR (hit dv kv y tv * hit du ku x tu)%R) (grid y x)))). }
            rewrite (csum_swap RC_laws). apply csum_ext. intros tv _.
            transitivity (csum npix (fun y => csum W (fun tu => csum npix (fun x => cmul (ofR (hit dv kv y tv * hit du ku x tu)%R) (grid y x))))).
            { apply csum_ext. intros y _. apply (csum_swap RC_laws npix W (fun x tu => cmul (ofR (hit dv kv y tv * hit du ku x tu)%R) (grid y x))). }
            apply (csum_swap RC_laws).
        - apply csum_ext. intros tv _. apply csum_ext. intros tu _. unfold hit. fold (gv tv) (gu tu).
          destruct (inside npix (gv tv)) eqn:I; cbn [andb].
          2: { transitivity (csum npix (fun _ => (c0 : RC))); [|apply (csum_0 RC_laws)]. apply csum_ext. intros y _. rewrite (csum_ext npix _ (fun _ => (c0 : RC))); [apply (csum_0 RC_laws)|]. intros x _. rewrite Rmult_0_l. apply injective_projections; cbn; ring. }
          destruct (inside npix (gu tu)) eqn:J; cbn [andb].
          2: { transitivity (csum npix (fun _ => (c0 : RC))); [|apply (csum_0 RC_laws)]. apply csum_ext. intros y _. rewrite (csum_ext npix _ (fun _ => (c0 : RC))); [apply (csum_0 RC_laws)|]. intros x _. rewrite Rmult_0_r. apply injective_projections; cbn; ring. }
          apply andb_prop in I, J. destruct I as (I1 & I2), J as (J1 & J2). apply Z.leb_le in I1, J1. apply Z.ltb_lt in I2, J2.
          rewrite (csum_only RC_laws npix (Z.to_nat (gv tv))).
          + rewrite (csum_only RC_laws npix (Z.to_nat (gu tu))).
            * now rewrite !Nat.eqb_refl.
            * lia.
            * intros x _ Hx. destruct (Nat.eqb_spec (Z.to_nat (gu tu)) x); [congruence|]. rewrite Rmult_0_r. apply injective_projections; cbn; ring.
          + lia.
          + intros y _ Hy. destruct (Nat.eqb_spec (Z.to_nat (gv tv)) y); [congruence|]. rewrite (csum_ext npix _ (fun _ => (c0 : RC))); [apply (csum_0 RC_laws)|]. intros x _. rewrite Rmult_0_l. apply injective_projections; cbn; ring. }
      rewrite X. unfold r. rewrite <- (csum_mul_l RC_laws).
      rewrite (for_csum RC_laws (fun vc : arr RC * R => fst vc i) (fun tv => cmul (coef i) (csum W (fun tu => if inside npix (gv tv) && inside npix (gu tu) then cmul (ofR (kv tv * ku tu)%R) (grid (Z.to_nat (gv tv)) (Z.to_nat (gu tu))) else c0)))); [reflexivity|].
      intros tv s Htv. rewrite <- (csum_mul_l RC_laws). apply (for_csum RC_laws (fun vc : arr RC * R => fst vc i)). intros tu s' Htu. unfold inner.
      destruct (inside npix (gv tv) && inside npix (gu tu)); [|apply injective_projections; cbn; ring]. cbn [fst]. rewrite corr_at. do 2 f_equal.
      generalize (grid (Z.to_nat (gv tv)) (Z.to_nat (gu tu))). intros [a b]. unfold ofR. apply injective_projections; cbn; ring. }
    exists (fun i => cmul (fst r i) (ofR (/ (snd r + 1 / 100000000))%R)). split; [destruct r; reflexivity|]. intros i. cbv beta. now rewrite <- Hw, <- Hv.
  Qed.
End Conv.

(* a hit is a tap of the kernel placed there *)
Lemma hit_tap K W os npix d f y : W mod 2 = 1 -> 0 < os -> (2 * Z.abs f <= Z.of_nat os)%Z ->
  csum (K := RR) W (hit npix (kernel_of K W os) d (fun t => K (Z.to_nat (Z.of_nat os * (Z.of_nat t + 1) + f))) y) =
  if y <? npix then tap K W os d f y else 0%R.
Proof.
  intros HW Ho Hf. unfold hit. cbn [width kernel_of]. cbv zeta.
  assert (H2 : (W + 1) / 2 = W / 2 + 1) by (pose proof (Nat.div_mod W 2 ltac:(lia)); symmetry; apply Nat.div_unique_exact; lia).
  pose proof (Nat.div_mod W 2 ltac:(lia)) as HWd.
  destruct (Nat.ltb_spec y npix) as [Hy|Hy].
  2: { rewrite (csum_ext (K := RR) W _ (fun _ => 0%R)); [apply (csum_0 (K := RR) RR_laws)|]. intros t Ht. unfold inside.
       destruct (Z.leb_spec 0 (d + Z.of_nat t - Z.of_nat (W / 2))), (Z.ltb_spec (d + Z.of_nat t - Z.of_nat (W / 2)) (Z.of_nat npix)); cbn [andb]; try reflexivity.
       destruct (Nat.eqb_spec (Z.to_nat (d + Z.of_nat t - Z.of_nat (W / 2))) y); [lia|reflexivity]. }
  unfold tap. destruct (Z.leb_spec (Z.abs (Z.of_nat y - d)) (Z.of_nat (W / 2))) as [Hd|Hd].
  - rewrite (csum_only (K := RR) RR_laws W (Z.to_nat (Z.of_nat y - d + Z.of_nat (W / 2)))).
    + rewrite Z2Nat.id by lia. replace (d + (Z.of_nat y - d + Z.of_nat (W / 2)) - Z.of_nat (W / 2))%Z with (Z.of_nat y) by lia.
      unfold inside. rewrite Nat2Z.id, Nat.eqb_refl. destruct (Z.leb_spec 0 (Z.of_nat y)), (Z.ltb_spec (Z.of_nat y) (Z.of_nat npix)); try lia. cbn [andb].
      f_equal. f_equal. rewrite H2. rewrite Nat2Z.inj_mul, Nat2Z.inj_add. change (Z.of_nat 1) with 1%Z. ring.
    + lia.
    + intros t Ht Hne. unfold inside. destruct (Z.leb_spec 0 (d + Z.of_nat t - Z.of_nat (W / 2))), (Z.ltb_spec (d + Z.of_nat t - Z.of_nat (W / 2)) (Z.of_nat npix)); cbn [andb]; try reflexivity.
      destruct (Nat.eqb_spec (Z.to_nat (d + Z.of_nat t - Z.of_nat (W / 2))) y); [lia|reflexivity].
  - rewrite (csum_ext (K := RR) W _ (fun _ => 0%R)); [apply (csum_0 (K := RR) RR_laws)|]. intros t Ht. unfold inside.
    destruct (Z.leb_spec 0 (d + Z.of_nat t - Z.of_nat (W / 2))), (Z.ltb_spec (d + Z.of_nat t - Z.of_nat (W / 2)) (Z.of_nat npix)); cbn [andb]; try reflexivity.
    destruct (Nat.eqb_spec (Z.to_nat (d + Z.of_nat t - Z.of_nat (W / 2))) y); [lia|reflexivity].
Qed.

Section Placed.
  Variables (K : arr R) (W os npix : nat) (su sv : R) (du fu dv fv : Z).
  Hypothesis HW : W mod 2 = 1.
  Hypothesis Ho : 0 < os.
  Hypothesis Pu : placed os (position npix su) du fu.
  Hypothesis Pv : placed os (position npix sv) dv fv.
  Lemma du_eq : discrete npix su = du /\ fraction npix su os = fu.
  Proof. eapply placed_unique; [apply model_placed|exact Pu]. Qed.
  Lemma dv_eq : discrete npix sv = dv /\ fraction npix sv os = fv.
  Proof. eapply placed_unique; [apply model_placed|exact Pv]. Qed.
  Lemma scatter_value grid vis S : exists g' cw, convolve_scatter unpacked_index su sv npix grid vis S (kernel_of K W os) = Ok (g', cw) /\
    (forall y x, y < npix -> x < npix -> g' y x = cadd (grid y x) (cmul (ofR (tap K W os dv fv y * tap K W os du fu x)%R) (S vis))) /\
    (forall y x, npix <= y \/ npix <= x -> g' y x = grid y x) /\
    cw = (all_taps K W os fv * all_taps K W os fu)%R.
  Proof.
    destruct du_eq as (Edu & Efu), dv_eq as (Edv & Efv).
    destruct (scatter_form unpacked_index su sv npix (kernel_of K W os) (fun t => K (Z.to_nat (Z.of_nat os * (Z.of_nat t + 1) + fu))) (fun t => K (Z.to_nat (Z.of_nat os * (Z.of_nat t + 1) + fv)))) with (grid := grid) (vis := vis) (S := S) as (g' & cw & E & Hg & Hc).
    - intros t Ht. cbn [oversampling nsamples samples kernel_of]. rewrite Efu. apply read_unpacked; auto. eapply placed_bound; eauto.
    - intros t Ht. cbn [oversampling nsamples samples kernel_of]. rewrite Efv. apply read_unpacked; auto. eapply placed_bound; eauto.
    - exists g', cw. split; [exact E|]. rewrite Edu, Edv in Hg. cbn [width kernel_of] in Hg, Hc.
      assert (Hg' : forall y x, g' y x = cadd (grid y x) (cmul (ofR ((if y <? npix then tap K W os dv fv y else 0) * (if x <? npix then tap K W os du fu x else 0))%R) (S vis))).
      { intros y x. rewrite Hg. rewrite !hit_tap; auto; eapply placed_bound; eauto. }
      split; [|split].
      + intros y x Hy Hx. rewrite Hg'. destruct (Nat.ltb_spec y npix), (Nat.ltb_spec x npix); try lia. reflexivity.
      + intros y x Hyx. rewrite Hg'. replace ((if y <? npix then tap K W os dv fv y else 0) * (if x <? npix then tap K W os du fu x else 0))%R with 0%R.
        * apply injective_projections; cbn; ring.
        * destruct (Nat.ltb_spec y npix), (Nat.ltb_spec x npix); try lia; ring.
      + rewrite Hc. unfold all_taps. reflexivity.
  Qed.
  Lemma gather_value grid vis to_corr coef : (forall (z : RC) (out : arr RC) i, to_corr z out i = cadd (out i) (cmul (coef i) z)) ->
    exists v', convolve_gather unpacked_index su sv npix grid vis to_corr (kernel_of K W os) = Ok v' /\
    forall i, v' i = cmul (cadd (vis i) (cmul (coef i) (under_kernel K W os npix du fu dv fv grid)))
      (ofR (/ (taps_inside K W os npix dv fv * taps_inside K W os npix du fu + 1 / 100000000))%R).
  Proof.
    intros Hc. destruct du_eq as (Edu & Efu), dv_eq as (Edv & Efv).
    destruct (gather_form unpacked_index su sv npix (kernel_of K W os) (fun t => K (Z.to_nat (Z.of_nat os * (Z.of_nat t + 1) + fu))) (fun t => K (Z.to_nat (Z.of_nat os * (Z.of_nat t + 1) + fv)))) with (grid := grid) (vis := vis) (to_corr := to_corr) (coef := coef) as (v' & E & Hv).
    - intros t Ht. cbn [oversampling nsamples samples kernel_of]. rewrite Efu. apply read_unpacked; auto. eapply placed_bound; eauto.
    - intros t Ht. cbn [oversampling nsamples samples kernel_of]. rewrite Efv. apply read_unpacked; auto. eapply placed_bound; eauto.
    - exact Hc.
    - exists v'. split; [exact E|]. intros i. rewrite Hv. rewrite Edu, Edv. cbn [width kernel_of].
      assert (T : forall d f, (2 * Z.abs f <= Z.of_nat os)%Z -> forall y, y < npix -> csum (K := RR) W (hit npix (kernel_of K W os) d (fun t => K (Z.to_nat (Z.of_nat os * (Z.of_nat t + 1) + f))) y) = tap K W os d f y).
      { intros d f Hf y Hy. rewrite hit_tap; auto. destruct (Nat.ltb_spec y npix); [reflexivity|lia]. }
      assert (Bu := placed_bound _ _ _ _ Pu). assert (Bv := placed_bound _ _ _ _ Pv).
      f_equal.
      + f_equal. f_equal. unfold under_kernel, over_grid. apply csum_ext. intros y Hy. apply csum_ext. intros x Hx. now rewrite !T.
      + unfold taps_inside. rewrite (csum_ext (K := RR) npix _ _ (T dv fv Bv)), (csum_ext (K := RR) npix _ _ (T du fu Bu)). reflexivity.
  Qed.
End Placed.

Lemma cconj_csum n (f : nat -> RC) : cconj (csum n f) = csum n (fun i => cconj (f i)).
Proof. induction n as [|n IH]; [apply (conj_0 RC_laws)|]. cbn [csum]. rewrite (law_conj_add RC RC_laws), IH. reflexivity. Qed.
(* scattering onto an empty grid and gathering from it are adjoint up to the normalisation of the gathering *)
Lemma adjoint K W os npix su sv vis G S to_corr coef n : W mod 2 = 1 -> 0 < os ->
  (forall (z : RC) (out : arr RC) i, to_corr z out i = cadd (out i) (cmul (coef i) z)) ->
  (forall v : arr RC, S v = cmul half (csum n (fun i => cmul (cconj (coef i)) (v i)))) ->
  exists g cw v du fu dv fv, convolve_scatter unpacked_index su sv npix (fun _ _ => c0) vis S (kernel_of K W os) = Ok (g, cw) /\
    convolve_gather unpacked_index su sv npix G (fun _ => c0) to_corr (kernel_of K W os) = Ok v /\
    placed os (position npix su) du fu /\ placed os (position npix sv) dv fv /\
    (taps_inside K W os npix dv fv * taps_inside K W os npix du fu + 1 / 100000000 <> 0 ->
     over_grid npix (fun y x => cmul (g y x) (cconj (G y x))) =
     cmul (ofR ((taps_inside K W os npix dv fv * taps_inside K W os npix du fu + 1 / 100000000) / 2)) (csum n (fun i => cmul (vis i) (cconj (v i)))))%R.
Proof.
  intros HW Ho Hc HS. pose proof (model_placed npix su os) as Pu. pose proof (model_placed npix sv os) as Pv.
  set (du := discrete npix su) in *. set (dv := discrete npix sv) in *. set (fu := fraction npix su os) in *. set (fv := fraction npix sv os) in *.
  destruct (scatter_value K W os npix su sv du fu dv fv HW Ho Pu Pv (fun _ _ => c0) vis S) as (g & cw & Eg & Hg & _ & _).
  destruct (gather_value K W os npix su sv du fu dv fv HW Ho Pu Pv G (fun _ => c0) to_corr coef Hc) as (v & Ev & Hv).
  exists g, cw, v, du, fu, dv, fv. repeat (split; [assumption|]). set (w := (_ + 1 / 100000000)%R). intros Hw.
  set (T := under_kernel K W os npix du fu dv fv G) in *.
  transitivity (cmul (S vis) (cconj T)).
  - unfold T, under_kernel, over_grid. rewrite cconj_csum, <- (csum_mul_l RC_laws). apply csum_ext. intros y Hy. rewrite cconj_csum, <- (csum_mul_l RC_laws).
    apply csum_ext. intros x Hx. rewrite Hg by assumption. generalize (G y x) (S vis). intros [a b] [c d]. unfold ofR. apply injective_projections; cbn; ring.
  - rewrite HS, <- !(csum_mul_l RC_laws), <- (csum_mul_r RC_laws). apply csum_ext. intros i Hi. rewrite Hv. fold w.
    generalize T (coef i) (vis i). intros [a b] [c d] [e f]. unfold ofR. apply injective_projections; cbn; field; exact Hw.
Qed.
(* gathering a grid of equal cells *)
Lemma constant_grid K W os npix du fu dv fv (z : RC) : under_kernel K W os npix du fu dv fv (fun _ _ => z) = cmul (ofR (taps_inside K W os npix dv fv * taps_inside K W os npix du fu)%R) z.
Proof. unfold under_kernel, over_grid, taps_inside. apply csum_prod. Qed.

Lemma nn_value su sv npix grid vis S du dv : nearest (position npix su) du -> nearest (position npix sv) dv ->
  (0 <= du < Z.of_nat npix)%Z -> (0 <= dv < Z.of_nat npix)%Z ->
  exists g', convolve_nn_scatter su sv npix grid vis S = Ok (g', 1%R) /\
    forall y x, g' y x = if (Z.of_nat y =? dv)%Z && (Z.of_nat x =? du)%Z then cadd (grid y x) (S vis) else grid y x.
Proof.
  intros Nu Nv Hu Hv. unfold convolve_nn_scatter.
  assert (discrete npix su = du) as -> by (eapply nearest_unique; [apply np_round_nearest|exact Nu]).
  assert (discrete npix sv = dv) as -> by (eapply nearest_unique; [apply np_round_nearest|exact Nv]).
  unfold index_of. destruct (Z.leb_spec 0 du), (Z.ltb_spec du (Z.of_nat npix)), (Z.leb_spec 0 dv), (Z.ltb_spec dv (Z.of_nat npix)); try lia. cbn [andb bind].
  eexists. split; [reflexivity|]. intros y x. unfold upd2.
  assert (B : forall (q : nat) d, (0 <= d)%Z -> (q =? Z.to_nat d) = (Z.of_nat q =? d)%Z).
  { intros q d Hd. destruct (Nat.eqb_spec q (Z.to_nat d)), (Z.eqb_spec (Z.of_nat q) d); try lia; reflexivity. }
  rewrite !B by lia. destruct (Z.eqb_spec (Z.of_nat y) dv) as [E1|]; cbn [andb]; [|reflexivity]. destruct (Z.eqb_spec (Z.of_nat x) du) as [E2|]; [|reflexivity].
  rewrite <- E1, <- E2, !Nat2Z.id. reflexivity.
Qed.

Lemma gather_layout l s to_corr K W os npix su sv du fu dv fv : In l layouts -> contains l s -> stokes2corr_impl (to_name l s) = Ok to_corr ->
  W mod 2 = 1 -> 0 < os -> placed os (position npix su) du fu -> placed os (position npix sv) dv fv -> forall grid,
  exists v, convolve_gather unpacked_index su sv npix grid (fun _ => c0) to_corr (kernel_of K W os) = Ok v /\
    (forall k, k < List.length l -> v k = cmul (cmul (coeff (nth k l XX) s) (under_kernel K W os npix du fu dv fv grid))
       (ofR (/ (taps_inside K W os npix dv fv * taps_inside K W os npix du fu + 1 / 100000000))%R)) /\
    forall k, List.length l <= k -> v k = c0.
Proof.
  intros Hl Hs Hc HW Ho Pu Pv grid. destruct (to_correlations l s Hl Hs) as (f & Ef & _ & _ & Hf). rewrite Hc in Ef. injection Ef as <-.
  destruct (gather_value K W os npix su sv du fu dv fv HW Ho Pu Pv grid (fun _ => c0) to_corr (fun k => if k <? List.length l then coeff (nth k l XX) s else c0)) as (v & Ev & Hv).
  { intros z out i. rewrite Hf. destruct (i <? List.length l); [reflexivity|]. apply injective_projections; cbn; ring. }
  exists v. split; [exact Ev|]. split; intros k Hk; rewrite Hv; destruct (Nat.ltb_spec k (List.length l)); try lia.
  - f_equal. generalize (coeff (nth k l XX) s) (under_kernel K W os npix du fu dv fv grid). intros [a b] [c d]. apply injective_projections; cbn; ring.
  - apply injective_projections; cbn; ring.
Qed.
Lemma adjoint_layout l s ncorr to_stokes to_corr K W os npix su sv du fu dv fv : In l layouts -> contains l s -> List.length l <= ncorr ->
  corr2stokes (from_name s l) ncorr = Ok to_stokes -> stokes2corr_impl (to_name l s) = Ok to_corr ->
  W mod 2 = 1 -> 0 < os -> placed os (position npix su) du fu -> placed os (position npix sv) dv fv -> forall vis G,
  let weight := (taps_inside K W os npix dv fv * taps_inside K W os npix du fu + 1 / 100000000)%R in weight <> 0%R ->
  exists g cw v, convolve_scatter unpacked_index su sv npix (fun _ _ => c0) vis to_stokes (kernel_of K W os) = Ok (g, cw) /\
    convolve_gather unpacked_index su sv npix G (fun _ => c0) to_corr (kernel_of K W os) = Ok v /\
    over_grid npix (fun y x => cmul (g y x) (cconj (G y x))) = cmul (ofR (weight / 2)%R) (csum (List.length l) (fun k => cmul (vis k) (cconj (v k)))).
Proof.
  intros Hl Hs Hn HS Hc HW Ho Pu Pv vis G weight Hw.
  destruct (to_correlations l s Hl Hs) as (f & Ef & _ & _ & Hf). rewrite Hc in Ef. injection Ef as <-.
  assert (N : ~ (l = [RL; LR] /\ s = Q)). { intros (-> & ->). discriminate HS. }
  destruct (from_correlations l s ncorr Hl Hs N Hn) as (f & Ef & Hg). rewrite HS in Ef. injection Ef as <-.
  destruct (adjoint K W os npix su sv vis G to_stokes to_corr (fun k => if k <? List.length l then coeff (nth k l XX) s else c0) (List.length l) HW Ho)
    as (g & cw & v & du' & fu' & dv' & fv' & Eg & Ev & Pu' & Pv' & A).
  { intros z out i. rewrite Hf. destruct (i <? List.length l); [reflexivity|]. apply injective_projections; cbn; ring. }
  { intros v. rewrite Hg. f_equal. apply csum_ext. intros k Hk. destruct (Nat.ltb_spec k (List.length l)); [reflexivity|lia]. }
  destruct (placed_unique _ _ _ _ _ _ Pu' Pu) as (-> & ->). destruct (placed_unique _ _ _ _ _ _ Pv' Pv) as (-> & ->).
  exists g, cw, v. split; [exact Eg|]. split; [exact Ev|]. apply A, Hw.
Qed.

Lemma nearest_int z : nearest (IZR z) z.
Proof. left. unfold Rminus. rewrite Rplus_opp_r, Rabs_R0. lra. Qed.
Lemma nn_outside npix (to_stokes : arr RC -> RC) vis (grid : arr2 RC) : 0 < npix ->
  (exists su g' cw, convolve_nn_scatter su 0 npix grid vis to_stokes = Ok (g', cw) /\ nearest (position npix su) (-1) /\
     g' (npix / 2) (npix - 1) = cadd (grid (npix / 2) (npix - 1)) (to_stokes vis)) /\
  exists su, convolve_nn_scatter su 0 npix grid vis to_stokes = Raise IndexError /\ nearest (position npix su) (Z.of_nat npix).
Proof.
  intros Hn. assert (P0 : discrete npix 0 = Z.of_nat (npix / 2)).
  { eapply nearest_unique; [apply np_round_nearest|]. rewrite Rplus_0_l, INR_IZR_INZ. apply nearest_int. }
  assert (Hh : npix / 2 < npix) by (apply Nat.div_lt; lia).
  assert (Pz : forall z, position npix (IZR z - INR (npix / 2))%R = IZR z) by (intros z; unfold position; ring).
  assert (D : forall z, discrete npix (IZR z - INR (npix / 2))%R = z).
  { intros z. eapply nearest_unique; [apply np_round_nearest|]. change (_ + _)%R with (position npix (IZR z - INR (npix / 2))). rewrite Pz. apply nearest_int. }
  assert (I0 : index_of npix (Z.of_nat (npix / 2)) = Ok (npix / 2)).
  { unfold index_of. destruct (Z.leb_spec 0 (Z.of_nat (npix / 2))), (Z.ltb_spec (Z.of_nat (npix / 2)) (Z.of_nat npix)); try lia. cbn [andb]. now rewrite Nat2Z.id. }
  split.
  - exists (IZR (-1) - INR (npix / 2))%R. unfold convolve_nn_scatter. rewrite P0, D, I0. cbn [bind].
    assert (index_of npix (-1) = Ok (npix - 1)) as ->.
    { unfold index_of. cbn [Z.leb Z.compare andb]. destruct (Z.leb_spec (- Z.of_nat npix) (-1)); [|lia]. cbn [andb Z.ltb Z.compare]. f_equal. lia. }
    cbn [bind]. eexists _, _. split; [reflexivity|]. split; [rewrite Pz; apply nearest_int|]. unfold upd2. now rewrite !Nat.eqb_refl.
  - exists (IZR (Z.of_nat npix) - INR (npix / 2))%R. unfold convolve_nn_scatter. rewrite P0, D, I0. cbn [bind].
    assert (index_of npix (Z.of_nat npix) = Raise IndexError) as ->.
    { unfold index_of. destruct (Z.leb_spec 0 (Z.of_nat npix)), (Z.ltb_spec (Z.of_nat npix) (Z.of_nat npix)), (Z.leb_spec (- Z.of_nat npix) (Z.of_nat npix)), (Z.ltb_spec (Z.of_nat npix) 0); try lia. reflexivity. }
    split; [reflexivity|]. rewrite Pz. apply nearest_int.
Qed.
