From Coq Require Import String Reals Lra Lia FunctionalExtensionality.
From Verif Require Import Prelude PreludeFacts CRing CplxR LoopFacts DftSpec StokesGridModel StokesGridSpec StokesGridProofs KernModel GridModel GridSpec GridProofs GridProofs2
  RoundSpec RoundProofs4 RavgProofs RgridSpec RgridProofs RgridProofs2 RdegridModel RdegridSpec.
Close Scope string_scope.
Close Scope R_scope.
Open Scope nat_scope.

Lemma gather_packed fl eps junk K pk W os su sv npix grid f : 0 < os -> pack_kernel junk K (os * (W + 2)) W os = Ok pk ->
  gather_rounded fl packed_index eps su sv npix grid f (kernel_of pk W os) = gather_rounded fl unpacked_index eps su sv npix grid f (kernel_of K W os).
Proof.
  intros Ho Hp. unfold gather_rounded. cbn [width oversampling nsamples samples kernel_of]. f_equal.
  apply forM_ext. intros tv gc Htv. rewrite (read_packed K pk W os _ tv Hp Ho (placed_bound _ _ _ _ (model_placed npix sv os)) Htv).
  rewrite (read_unpacked K W os _ tv Ho (placed_bound _ _ _ _ (model_placed npix sv os)) Htv). cbn [bind].
  apply forM_ext. intros tu gc' Htu. rewrite (read_packed K pk W os _ tu Hp Ho (placed_bound _ _ _ _ (model_placed npix su os)) Htu).
  rewrite (read_unpacked K W os _ tu Ho (placed_bound _ _ _ _ (model_placed npix su os)) Htu). reflexivity.
Qed.
Lemma rsum_ext n f g : (forall i, i < n -> f i = g i) -> rsum n f = rsum n g.
Proof. apply (csum_ext (K := RR)). Qed.
(* the cells under the kernel, tap by tap *)
Lemma axis K W os npix d f F : W mod 2 = 1 -> 0 < os -> (2 * Z.abs f <= Z.of_nat os)%Z ->
  rsum npix (fun y => (tap K W os d f y * F y)%R) =
  rsum W (fun t => let g := (d + Z.of_nat t - Z.of_nat (W / 2))%Z in if inside npix g then (K (Z.to_nat (Z.of_nat os * (Z.of_nat t + 1) + f)) * F (Z.to_nat g))%R else 0%R).
Proof.
  intros HW Ho Hf. transitivity (rsum npix (fun y => rsum W (fun t => (hit npix (kernel_of K W os) d (fun t => K (Z.to_nat (Z.of_nat os * (Z.of_nat t + 1) + f))) y t * F y)%R))).
  - apply rsum_ext. intros y Hy. rewrite rsum_r. f_equal. symmetry. etransitivity; [apply (hit_tap K W os npix d f y HW Ho Hf)|]. destruct (Nat.ltb_spec y npix); [reflexivity|lia].
  - unfold rsum. rewrite (csum_swap (K := RR) RR_laws). apply (csum_ext (K := RR)). intros t Ht. unfold hit. cbn [width kernel_of]. cbv zeta.
    destruct (inside npix (d + Z.of_nat t - Z.of_nat (W / 2))) eqn:I; cbn [andb].
    2: { rewrite (csum_ext (K := RR) npix _ (fun _ => 0%R)); [apply (csum_0 (K := RR) RR_laws)|]. intros i _. apply Rmult_0_l. }
    apply andb_prop in I. destruct I as (I1 & I2). apply Z.leb_le in I1. apply Z.ltb_lt in I2.
    rewrite (csum_only (K := RR) RR_laws npix (Z.to_nat (d + Z.of_nat t - Z.of_nat (W / 2)))); [now rewrite Nat.eqb_refl|lia|].
    intros i Hi Hne. destruct (Nat.eqb_spec (Z.to_nat (d + Z.of_nat t - Z.of_nat (W / 2))) i); [congruence|]. apply Rmult_0_l.
Qed.
Lemma kernel_taps K W os npix du fu dv fv f : W mod 2 = 1 -> 0 < os -> (2 * Z.abs fu <= Z.of_nat os)%Z -> (2 * Z.abs fv <= Z.of_nat os)%Z ->
  kernel_sum K W os npix du fu dv fv f = rsum W (fun tv => rsum W (fun tu =>
    let gv := (dv + Z.of_nat tv - Z.of_nat (W / 2))%Z in let gu := (du + Z.of_nat tu - Z.of_nat (W / 2))%Z in
    if inside npix gv && inside npix gu then (K (Z.to_nat (Z.of_nat os * (Z.of_nat tv + 1) + fv)) * K (Z.to_nat (Z.of_nat os * (Z.of_nat tu + 1) + fu)) * f (Z.to_nat gv) (Z.to_nat gu))%R else 0%R)).
Proof.
  intros HW Ho Hu Hv. unfold kernel_sum.
  transitivity (rsum npix (fun y => (tap K W os dv fv y * rsum npix (fun x => (tap K W os du fu x * f y x)%R))%R)).
  { apply rsum_ext. intros y _. rewrite <- rsum_l. apply rsum_ext. intros x _. ring. }
  rewrite (axis K W os npix dv fv (fun y => rsum npix (fun x => (tap K W os du fu x * f y x)%R)) HW Ho Hv). apply rsum_ext. intros tv _. cbv zeta.
  destruct (inside npix (dv + Z.of_nat tv - Z.of_nat (W / 2))); cbn [andb]; [|symmetry; apply (csum_0 (K := RR) RR_laws)].
  rewrite (axis K W os npix du fu _ HW Ho Hu), <- rsum_l. apply rsum_ext. intros tu _. cbv zeta. destruct (inside npix (du + Z.of_nat tu - Z.of_nat (W / 2))); ring.
Qed.
Lemma kernel_weight K W os npix du fu dv fv : kernel_sum K W os npix du fu dv fv (fun _ _ => 1%R) = (taps_inside K W os npix dv fv * taps_inside K W os npix du fu)%R.
Proof.
  unfold kernel_sum, taps_inside. change (csum (K := RR) npix (tap K W os dv fv)) with (rsum npix (tap K W os dv fv)). rewrite <- rsum_r. apply rsum_ext. intros y _.
  change (csum (K := RR) npix (tap K W os du fu)) with (rsum npix (tap K W os du fu)). rewrite <- rsum_l. apply rsum_ext. intros x _. ring.
Qed.

Section Loop.
  Context (fl : R -> R) (u : R) (Hu : roundoff fl u).
  Notation near := (near u).
  Lemma near_up k x' x m m' : near k x' x m -> (m <= m')%R -> near k x' x m'.
  Proof.
    intros (A & B) H. split; [|lra]. eapply Rle_trans; [exact A|]. apply Rmult_le_compat_l; [apply (gamma_pos fl u Hu)|exact H].
  Qed.
  Lemma near_obs {T} (obs : T -> R) n (body : nat -> T -> T) (q : nat -> bool) (t' t m : nat -> R) k0 :
    (forall i s, i < n -> obs (body i s) = if q i then fl (obs s + t' i)%R else obs s) -> (forall i, i < n -> q i = true -> near k0 (t' i) (t i) (m i)) ->
    forall k s e a, k0 <= k -> near k (obs s) e a ->
    near (k + n) (obs (for_ n body s)) (e + rsum n (fun i => if q i then t i else 0%R))%R (a + rsum n (fun i => if q i then m i else 0%R))%R.
  Proof.
    induction n as [|n IH]; intros Hb Ht k s e a Hk N.
    - cbn [for_]. change (rsum 0 _) with 0%R. rewrite !Rplus_0_r, Nat.add_0_r. exact N.
    - cbn [for_]. rewrite Hb by lia. rewrite !rsum_S, <- !Rplus_assoc.
      assert (Q : near (k + n) (obs (for_ n body s)) (e + rsum n (fun i => if q i then t i else 0%R))%R (a + rsum n (fun i => if q i then m i else 0%R))%R) by (apply IH; auto).
      replace (k + S n) with (S (k + n)) by lia. destruct (q n) eqn:E.
      + apply (near_fl fl u Hu). apply near_plus; [exact Q|]. apply (near_mono fl u Hu k0); [lia|]. apply Ht; [lia|exact E].
      + rewrite !Rplus_0_r. apply (near_mono fl u Hu (k + n)); [lia|exact Q].
  Qed.
  Lemma near_double {T} (obs : T -> R) n w (inner : nat -> nat -> T -> T) (q : nat -> nat -> bool) (t' t m : nat -> nat -> R) k0 :
    (forall i j s, i < n -> j < w -> obs (inner i j s) = if q i j then fl (obs s + t' i j)%R else obs s) ->
    (forall i j, i < n -> j < w -> q i j = true -> near k0 (t' i j) (t i j) (m i j)) ->
    forall k s e a, k0 <= k -> near k (obs s) e a ->
    near (k + n * w) (obs (for_ n (fun i => for_ w (inner i)) s)) (e + rsum n (fun i => rsum w (fun j => if q i j then t i j else 0%R)))%R
      (a + rsum n (fun i => rsum w (fun j => if q i j then m i j else 0%R)))%R.
  Proof.
    induction n as [|n IH]; intros Hb Ht k s e a Hk N.
    - cbn [for_ Nat.mul]. change (rsum 0 _) with 0%R. rewrite !Rplus_0_r, Nat.add_0_r. exact N.
    - cbn [for_]. rewrite !rsum_S, <- !Rplus_assoc. replace (k + S n * w) with ((k + n * w) + w) by lia.
      apply (near_obs obs w (inner n) (q n) (t' n) (t n) (m n) k0); try (intros; apply Hb || apply Ht; auto; lia); [lia|]. apply IH; auto.
  Qed.
End Loop.
Lemma coeff_unit c s : In (coeff c s) [(0, 0); (1, 0); (-1, 0); (0, 1); (0, -1)]%R.
Proof. destruct c, s; cbn; unfold coeff; cbn; rewrite ?Ropp_0; auto 10. Qed.
Lemma part_unit (part : RC -> R) (c : RC) : part = fst \/ part = snd -> In c [(0, 0); (1, 0); (-1, 0); (0, 1); (0, -1)]%R ->
  exists a b, (forall z : RC, part (cmul c z) = (a * fst z + b * snd z)%R) /\ In (a, b) [(0, 0); (1, 0); (-1, 0); (0, 1); (0, -1)]%R.
Proof.
  intros Hp Hc. exists (part (cmul c ((1, 0)%R : RC))), (part (cmul c ((0, 1)%R : RC))). split.
  - intros z. destruct Hp as [->| ->]; cbn; ring.
  - cbn in Hc. destruct Hc as [<-|[<-|[<-|[<-|[<-|[]]]]]]; destruct Hp as [->| ->]; cbn; rewrite ?Rmult_0_l, ?Rmult_0_r, ?Rmult_1_l, ?Rmult_1_r, ?Rminus_0_r, ?Rplus_0_l, ?Rplus_0_r, ?Rminus_0_l; auto 10;
      replace (- -1)%R with 1%R by ring; auto 10.
Qed.
Section Gather.
  Context (fl : R -> R) (u : R) (Hu : roundoff fl u).
  Notation near := (near u).
  Lemma cell_near part (c : RC) (g : RC) cv cu : part = fst \/ part = snd -> In c [(0, 0); (1, 0); (-1, 0); (0, 1); (0, -1)]%R -> (0 <= cv)%R -> (0 <= cu)%R ->
    near 2 (part (cmul c (cell_rounded fl g cv cu : RC))) (cv * cu * part (cmul c g))%R (cv * cu * size g)%R.
  Proof.
    intros Hp Hc Pv Pu. destruct (part_unit part c Hp Hc) as (a & b & E & Hab). rewrite !E.
    assert (P : (0 <= cv * cu)%R) by (apply Rmult_le_pos; assumption).
    assert (N : forall z, near 2 (fl (fl (z * cv) * cu)) (cv * cu * z)%R (cv * cu * Rabs z)%R).
    { intros z. apply (near_fl fl u Hu). replace (cv * cu * z)%R with (z * cv * cu)%R by ring. replace (cv * cu * Rabs z)%R with (Rabs z * cv * cu)%R by ring.
      apply near_times; [exact Pu|]. replace (Rabs z * cv)%R with (Rabs (z * cv)) by (rewrite Rabs_mult, (Rabs_pos_eq cv Pv); reflexivity). apply near_mult, Hu. }
    assert (O : forall k x' x m, near k x' x m -> near k (- x') (- x) m).
    { intros k x' x m (A & B). split; [|now rewrite Rabs_Ropp]. replace (- x' - - x)%R with (- (x' - x))%R by ring. now rewrite Rabs_Ropp. }
    pose proof (Rabs_pos (fst g)) as G1. pose proof (Rabs_pos (snd g)) as G2.
    assert (S1 : (cv * cu * Rabs (fst g) <= cv * cu * size g)%R) by (apply Rmult_le_compat_l; [exact P|unfold size; lra]).
    assert (S2 : (cv * cu * Rabs (snd g) <= cv * cu * size g)%R) by (apply Rmult_le_compat_l; [exact P|unfold size; lra]).
    unfold cell_rounded. cbn [fst snd]. cbn in Hab.
    destruct Hab as [Q|[Q|[Q|[Q|[Q|[]]]]]]; injection Q as <- <-.
    - match goal with |- RavgProofs.near _ _ ?x' ?x _ => replace x' with 0%R by ring; replace x with 0%R by ring end.
      apply (near_up fl u Hu) with (m := 0%R); [|eapply Rle_trans; [|exact S1]; apply Rmult_le_pos; assumption]. apply (near_mono fl u Hu 0); [lia|]. pose proof (near_self u 0) as N0. now rewrite Rabs_R0 in N0.
    - match goal with |- RavgProofs.near _ _ ?x' ?x _ => replace x' with (fl (fl (fst g * cv) * cu)) by ring; replace x with (cv * cu * fst g)%R by ring end.
      apply (near_up fl u Hu) with (m := (cv * cu * Rabs (fst g))%R); [apply N|exact S1].
    - match goal with |- RavgProofs.near _ _ ?x' ?x _ => replace x' with (- fl (fl (fst g * cv) * cu))%R by ring; replace x with (- (cv * cu * fst g))%R by ring end.
      apply (near_up fl u Hu) with (m := (cv * cu * Rabs (fst g))%R); [apply O, N|exact S1].
    - match goal with |- RavgProofs.near _ _ ?x' ?x _ => replace x' with (fl (fl (snd g * cv) * cu)) by ring; replace x with (cv * cu * snd g)%R by ring end.
      apply (near_up fl u Hu) with (m := (cv * cu * Rabs (snd g))%R); [apply N|exact S2].
    - match goal with |- RavgProofs.near _ _ ?x' ?x _ => replace x' with (- fl (fl (snd g * cv) * cu))%R by ring; replace x with (- (cv * cu * snd g))%R by ring end.
      apply (near_up fl u Hu) with (m := (cv * cu * Rabs (snd g))%R); [apply O, N|exact S2].
  Qed.
  Context (K : arr R) (HK : forall i, (0 <= K i)%R) (W os npix : nat) (su sv : R) (du fu dv fv : Z) (HW : W mod 2 = 1) (Ho : 0 < os)
    (Pu : placed os (position npix su) du fu) (Pv : placed os (position npix sv) dv fv) (grid : arr2 RC)
    (to_corr : RC -> arr RC -> arr RC) (n : nat) (coef : nat -> RC)
    (Hcoef : forall k, k < n -> In (coef k) [(0, 0); (1, 0); (-1, 0); (0, 1); (0, -1)]%R)
    (Hcorr : forall x out k, k < n -> to_corr x out k = cadd (out k) (cmul (coef k) x)).
  Lemma gather_near : let g := gamma u (W * W + 3) in (g < 1)%R ->
    exists v, gather_rounded fl unpacked_index (fl (1 / 100000000)) su sv npix grid to_corr (kernel_of K W os) = Ok v /\
    forall k part, k < n -> part = fst \/ part = snd ->
      let d := (taps_inside K W os npix dv fv * taps_inside K W os npix du fu + 1 / 100000000)%R in
      (Rabs (part (v k) - kernel_sum K W os npix du fu dv fv (fun y x => part (cmul (coef k) (grid y x))) / d) <=
       quotient_error u g * (kernel_sum K W os npix du fu dv fv (fun y x => size (grid y x)) / d))%R.
  Proof.
    intros g Hg. destruct (du_eq os npix su du fu Pu) as (Edu & Efu). destruct (dv_eq os npix sv dv fv Pv) as (Edv & Efv).
    pose proof (placed_bound _ _ _ _ Pu) as Bu. pose proof (placed_bound _ _ _ _ Pv) as Bv.
    set (ku := fun t => K (Z.to_nat (Z.of_nat os * (Z.of_nat t + 1) + fu))). set (kv := fun t => K (Z.to_nat (Z.of_nat os * (Z.of_nat t + 1) + fv))).
    unfold gather_rounded. cbn [width oversampling nsamples samples kernel_of]. rewrite Edu, Edv, Efu, Efv.
    set (gv := fun tv => (dv + Z.of_nat tv - Z.of_nat (W / 2))%Z). set (gu := fun tu => (du + Z.of_nat tu - Z.of_nat (W / 2))%Z).
    set (inner := fun tv tu (vc : arr RC * R) =>
      if inside npix (gv tv) && inside npix (gu tu)
      then (add_rounded fl to_corr (cell_rounded fl (grid (Z.to_nat (gv tv)) (Z.to_nat (gu tu))) (kv tv) (ku tu)) (fst vc), fl (snd vc + fl (kv tv * ku tu))) else vc).
    rewrite (forM_pure W _ (fun tv gc => for_ W (inner tv) gc)).
    2: { intros tv st Htv. rewrite (read_unpacked K W os fv tv Ho Bv Htv). cbn [bind]. apply forM_pure. intros tu st' Htu.
         rewrite (read_unpacked K W os fu tu Ho Bu Htu). reflexivity. }
    match goal with |- context [for_ W ?b (fun _ => c0, 0%R)] => set (r := for_ W b (fun _ => c0, 0%R)) end. cbn [bind].
    exists (fun i => let d := fl (snd r + fl (1 / 100000000)) in (fl (fst (fst r i) / d), fl (snd (fst r i) / d))%R). split; [now destruct r|]. intros k part Hk Hp.
    set (d := (taps_inside K W os npix dv fv * taps_inside K W os npix du fu + 1 / 100000000)%R).
    set (vis := fst r). set (cw := snd r).
    assert (Z : forall j, near j 0 0 0). { intros j. apply (near_mono fl u Hu 0); [lia|]. pose proof (near_self u 0) as N. now rewrite Rabs_R0 in N. }
    set (q := fun tv tu => inside npix (gv tv) && inside npix (gu tu)).
    assert (Nv : near (2 + W * W) (part (vis k)) (kernel_sum K W os npix du fu dv fv (fun y x => part (cmul (coef k) (grid y x)))) (kernel_sum K W os npix du fu dv fv (fun y x => size (grid y x)))).
    { rewrite !kernel_taps by assumption.
      pose proof (near_double fl u Hu (fun vc : arr RC * R => part (fst vc k)) W W inner q (fun tv tu => part (cmul (coef k) (cell_rounded fl (grid (Z.to_nat (gv tv)) (Z.to_nat (gu tu))) (kv tv) (ku tu) : RC)))
        (fun tv tu => (kv tv * ku tu * part (cmul (coef k) (grid (Z.to_nat (gv tv)) (Z.to_nat (gu tu)))))%R) (fun tv tu => (kv tv * ku tu * size (grid (Z.to_nat (gv tv)) (Z.to_nat (gu tu))))%R) 2) as N.
      specialize (N ltac:(intros tv tu st _ _; unfold inner, q; destruct (inside npix (gv tv) && inside npix (gu tu)); [|reflexivity]; cbn [fst]; unfold add_rounded; rewrite Hcorr by exact Hk;
        destruct Hp as [->| ->]; cbn [cadd RC fst snd c0]; rewrite Rplus_0_l; reflexivity)).
      specialize (N ltac:(intros tv tu _ _ _; apply cell_near; [exact Hp|apply Hcoef, Hk|apply HK|apply HK])).
      specialize (N 2 (fun _ => c0, 0%R) 0%R 0%R (Nat.le_refl 2)). cbn [fst] in N.
      specialize (N ltac:(destruct Hp as [->| ->]; apply Z)). rewrite !Rplus_0_l in N. fold r in N. exact N. }
    assert (Nw : near (2 + W * W) cw (taps_inside K W os npix dv fv * taps_inside K W os npix du fu)%R (taps_inside K W os npix dv fv * taps_inside K W os npix du fu)%R).
    { rewrite <- kernel_weight. rewrite kernel_taps by assumption.
      pose proof (near_double fl u Hu (fun vc : arr RC * R => snd vc) W W inner q (fun tv tu => fl (kv tv * ku tu)) (fun tv tu => (kv tv * ku tu * 1)%R) (fun tv tu => (kv tv * ku tu * 1)%R) 1) as N.
      specialize (N ltac:(intros tv tu st _ _; unfold inner, q; destruct (inside npix (gv tv) && inside npix (gu tu)); reflexivity)).
      specialize (N ltac:(intros tv tu _ _ _; cbv beta; rewrite Rmult_1_r; pose proof (near_mult fl u Hu (kv tv) (ku tu)) as Q; rewrite (Rabs_pos_eq (kv tv * ku tu)) in Q by (apply Rmult_le_pos; apply HK); exact Q)).
      specialize (N 1 (fun _ => c0, 0%R) 0%R 0%R (Nat.le_refl 1)). cbn [snd] in N. specialize (N (Z 1)). rewrite !Rplus_0_l in N. fold r in N.
      apply (near_mono fl u Hu (1 + W * W)); [lia|]. exact N. }
    assert (Nd : near (W * W + 3) (fl (cw + fl (1 / 100000000))) d d).
    { replace (W * W + 3) with (S (2 + W * W)) by lia. apply (near_fl fl u Hu). unfold d. apply near_plus; [exact Nw|].
      apply (near_mono fl u Hu 1); [lia|]. apply (near_fl fl u Hu 0). pose proof (near_self u (1 / 100000000)) as N. rewrite Rabs_pos_eq in N by lra. exact N. }
    apply (near_mono fl u Hu _ (W * W + 3)) in Nv; [|lia].
    assert (T : forall d f, (0 <= taps_inside K W os npix d f)%R).
    { intros d' f. unfold taps_inside. apply rsum_nonneg. intros y _. unfold tap. destruct (_ <=? _)%Z; [apply HK|lra]. }
    match goal with |- (Rabs (part ?z - _) <= _)%R => assert (Hn : part z = fl (part (vis k) / fl (cw + fl (1 / 100000000)))%R) by (destruct Hp as [->| ->]; reflexivity); rewrite Hn end.
    apply (quotient_near fl u Hu _ _ _ _ d g); try apply Nv; try apply Nd.
    - unfold d. pose proof (Rmult_le_pos _ _ (T dv fv) (T du fu)). lra.
    - split; [apply (gamma_pos fl u Hu)|exact Hg].
  Qed.
End Gather.
(* parts of the exact result *)
Lemma under_part part K W os npix du fu dv fv (c : RC) grid q : part = fst \/ part = snd ->
  part (cmul (cmul c (under_kernel K W os npix du fu dv fv grid)) (ofR q)) = (kernel_sum K W os npix du fu dv fv (fun y x => part (cmul c (grid y x))) * q)%R.
Proof.
  intros Hp. transitivity (part (cmul c (under_kernel K W os npix du fu dv fv grid)) * q)%R; [destruct Hp as [->| ->]; cbn; ring|]. f_equal.
  assert (A : forall n (h : nat -> RC), part (csum n h) = rsum n (fun i => part (h i))).
  { induction n as [|n IH]; intros h; [destruct Hp as [->| ->]; reflexivity|]. rewrite rsum_S, <- IH. destruct Hp as [->| ->]; reflexivity. }
  unfold under_kernel, over_grid, kernel_sum. rewrite <- (csum_mul_l RC_laws), A. apply rsum_ext. intros y _. rewrite <- (csum_mul_l RC_laws), A. apply rsum_ext. intros x _.
  destruct Hp as [->| ->]; cbn; ring.
Qed.
Lemma kernel_max K W os npix du fu dv fv (f : arr2 R) m : (forall i, (0 <= K i)%R) -> (0 <= m)%R -> (forall y x, y < npix -> x < npix -> (f y x <= m)%R) ->
  let d := (taps_inside K W os npix dv fv * taps_inside K W os npix du fu + 1 / 100000000)%R in (kernel_sum K W os npix du fu dv fv f / d <= m)%R.
Proof.
  intros HK Hm Hf d.
  assert (T : forall d f y, (0 <= tap K W os d f y)%R) by (intros; unfold tap; destruct (_ <=? _)%Z; [apply HK|lra]).
  assert (L : forall n g h, (forall i, i < n -> (g i <= h i)%R) -> (rsum n g <= rsum n h)%R).
  { induction n as [|n IH]; intros g h H; [apply Rle_refl|]. rewrite !rsum_S. apply Rplus_le_compat; [apply IH; intros; apply H; lia|apply H; lia]. }
  assert (B : (kernel_sum K W os npix du fu dv fv f <= kernel_sum K W os npix du fu dv fv (fun _ _ => 1%R) * m)%R).
  { unfold kernel_sum. rewrite <- rsum_r. apply L. intros y Hy. rewrite <- rsum_r. apply L. intros x Hx. rewrite Rmult_1_r. apply Rmult_le_compat_l; [apply Rmult_le_pos; apply T|now apply Hf]. }
  rewrite kernel_weight in B.
  assert (P : forall d f, (0 <= taps_inside K W os npix d f)%R) by (intros; unfold taps_inside; apply rsum_nonneg; intros; apply T).
  pose proof (Rmult_le_pos _ _ (P dv fv) (P du fu)) as Q. assert (D : (0 < d)%R) by (unfold d; lra).
  apply (Rmult_le_reg_r d); [exact D|]. unfold Rdiv. rewrite Rmult_assoc, Rinv_l by lra. unfold d. nra.
Qed.
Lemma double_gather W : W <= 63 -> (gamma (/ 2 ^ 53) (W * W + 3) < 1 /\ quotient_error (/ 2 ^ 53) (gamma (/ 2 ^ 53) (W * W + 3)) <= / 10 ^ 11)%R.
Proof.
  intros HW. set (k := W * W + 3).
  assert (Hk : (INR k <= 4000)%R). { unfold k. rewrite plus_INR, mult_INR. assert (INR W <= 63)%R by (replace 63%R with (INR 63) by (simpl; lra); apply le_INR; exact HW). pose proof (pos_INR W). replace (INR 3) with 3%R by (simpl; lra). nra. }
  clearbody k. pose proof (pos_INR k) as P. set (u := (/ 2 ^ 53)%R).
  assert (U : (0 < u <= / 9000000000000000)%R).
  { unfold u. split; [apply Rinv_0_lt_compat; lra|apply Rinv_le_contravar; lra]. }
  assert (KU : (INR k * u <= 45 / 100000000000000)%R).
  { eapply Rle_trans; [apply Rmult_le_compat; [exact P|lra|exact Hk|apply U]|]. lra. }
  assert (KU0 : (0 <= INR k * u)%R) by (apply Rmult_le_pos; lra).
  assert (G : (gamma u k <= 46 / 100000000000000)%R).
  { eapply Rle_trans; [apply gamma_bound; lra|]. apply (Rmult_le_reg_r (1 - INR k * u)); [lra|]. unfold Rdiv at 1. rewrite Rmult_assoc, Rinv_l by lra. lra. }
  assert (G0 : (0 <= gamma u k)%R). { unfold gamma. assert (1 <= (1 + u) ^ k)%R; [apply pow_R1_Rle; lra|lra]. }
  split; [lra|]. unfold quotient_error.
  assert (Q : (2 * gamma u k / (1 - gamma u k) <= 93 / 100000000000000)%R).
  { apply (Rmult_le_reg_r (1 - gamma u k)); [lra|]. unfold Rdiv at 1. rewrite Rmult_assoc, Rinv_l by lra. lra. }
  assert (Q0 : (0 <= 2 * gamma u k / (1 - gamma u k))%R). { apply Rmult_le_pos; [lra|]. apply Rlt_le, Rinv_0_lt_compat. lra. }
  nra.
Qed.
Lemma gather_exact l s to_corr index su sv npix grid k : In l layouts -> contains l s -> stokes2corr_impl (to_name l s) = Ok to_corr ->
  gather_rounded (fun x => x) index (1 / 100000000) su sv npix grid to_corr k = convolve_gather index su sv npix grid (fun _ => c0) to_corr k.
Proof.
  intros Hl Hs Hc. destruct (to_correlations l s Hl Hs) as (f & Ef & _ & _ & Hf). rewrite Hc in Ef. injection Ef as <-.
  assert (A : forall (z : RC) cv cu out, add_rounded (fun x => x) to_corr (cell_rounded (fun x => x) z cv cu) out = to_corr (cmul (cmul z (ofR cv)) (ofR cu)) out).
  { intros z cv cu out. apply functional_extensionality. intros i. unfold add_rounded. cbv zeta. rewrite !Hf. destruct (i <? List.length l).
    - generalize (coeff (nth i l XX) s). intros c. apply injective_projections; unfold cell_rounded; cbn; ring.
    - apply injective_projections; cbn; ring. }
  unfold gather_rounded, convolve_gather. match goal with |- bind ?x _ = bind ?y _ => replace x with y end.
  - match goal with |- bind ?x _ = _ => destruct x as [[vis cw]|]; [|reflexivity] end. cbn [bind]. apply (f_equal (@Ok (arr RC))). apply functional_extensionality. intros i.
    apply injective_projections; cbn; unfold Rdiv; ring.
  - symmetry. apply forM_ext. intros tv gc _. destruct (getitem _ _ _) as [cv|]; [|reflexivity]. cbn [bind]. apply forM_ext. intros tu gc' _.
    destruct (getitem _ _ _) as [cu|]; [|reflexivity]. cbn [bind]. now rewrite A.
Qed.
