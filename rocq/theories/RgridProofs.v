From Coq Require Import Reals Lra Lia.
From Verif Require Import Prelude PreludeFacts CRing CplxR LoopFacts DftSpec GridModel GridSpec GridProofs GridProofs2 KernModel RoundSpec RavgProofs RgridModel RgridSpec.
Close Scope R_scope.
Open Scope nat_scope.

Lemma rsum_S n f : rsum (S n) f = (rsum n f + f n)%R. Proof. reflexivity. Qed.
Lemma rsum_l n a f : rsum n (fun i => a * f i)%R = (a * rsum n f)%R. Proof. apply (csum_mul_l (K := RR) RR_laws). Qed.
Lemma rsum_r n a f : rsum n (fun i => f i * a)%R = (rsum n f * a)%R. Proof. apply (csum_mul_r (K := RR) RR_laws). Qed.
Lemma scatter_exact index su sv npix grid vis to_stokes k :
  scatter_rounded (fun x => x) index su sv npix grid (to_stokes vis) k = convolve_scatter index su sv npix grid vis to_stokes k.
Proof.
  unfold scatter_rounded, convolve_scatter. apply forM_ext. intros tv gc _. destruct (getitem _ _ _) as [cv|]; [|reflexivity]. cbn [bind].
  apply forM_ext. intros tu gc' _. destruct (getitem _ _ _) as [cu|]; [|reflexivity]. cbn [bind]. do 2 f_equal.
  match goal with |- (if ?b then _ else _) = _ => destruct b; [|reflexivity] end. f_equal. unfold add_tap. apply injective_projections; cbn; ring.
Qed.
Lemma scatter_packed fl junk K pk W os su sv npix grid s : 0 < os -> pack_kernel junk K (os * (W + 2)) W os = Ok pk ->
  scatter_rounded fl packed_index su sv npix grid s (kernel_of pk W os) = scatter_rounded fl unpacked_index su sv npix grid s (kernel_of K W os).
Proof.
  intros Ho Hp. unfold scatter_rounded. cbn [width oversampling nsamples samples kernel_of].
  apply forM_ext. intros tv gc Htv. rewrite (read_packed K pk W os _ tv Hp Ho (placed_bound _ _ _ _ (model_placed npix sv os)) Htv).
  rewrite (read_unpacked K W os _ tv Ho (placed_bound _ _ _ _ (model_placed npix sv os)) Htv). cbn [bind].
  apply forM_ext. intros tu gc' Htu. rewrite (read_packed K pk W os _ tu Hp Ho (placed_bound _ _ _ _ (model_placed npix su os)) Htu).
  rewrite (read_unpacked K W os _ tu Ho (placed_bound _ _ _ _ (model_placed npix su os)) Htu). reflexivity.
Qed.
Lemma single_hit {T X} (obs : T -> X) n (body : nat -> T -> T) (step : X -> X) (i0 : Z) s :
  (forall i s, i < n -> obs (body i s) = if (Z.of_nat i =? i0)%Z then step (obs s) else obs s) ->
  obs (for_ n body s) = if (0 <=? i0)%Z && (i0 <? Z.of_nat n)%Z then step (obs s) else obs s.
Proof.
  induction n as [|n IH]; intros H; cbn [for_].
  - destruct (Z.leb_spec 0 i0), (Z.ltb_spec i0 (Z.of_nat 0)); cbn [andb]; try reflexivity; lia.
  - rewrite H by lia. rewrite IH by (intros; apply H; lia).
    destruct (Z.eqb_spec (Z.of_nat n) i0), (Z.leb_spec 0 i0), (Z.ltb_spec i0 (Z.of_nat n)), (Z.ltb_spec i0 (Z.of_nat (S n))); cbn [andb]; try reflexivity; lia.
Qed.
Definition touched (W : nat) (d : Z) (y : nat) : bool := (Z.abs (Z.of_nat y - d) <=? Z.of_nat (W / 2))%Z.
Lemma touched_range W d y : W mod 2 = 1 ->
  ((0 <=? Z.of_nat y - d + Z.of_nat (W / 2)) && (Z.of_nat y - d + Z.of_nat (W / 2) <? Z.of_nat W))%Z = touched W d y.
Proof.
  intros HW. unfold touched. pose proof (Nat.div_mod W 2 ltac:(lia)).
  destruct (Z.leb_spec 0 (Z.of_nat y - d + Z.of_nat (W / 2))), (Z.ltb_spec (Z.of_nat y - d + Z.of_nat (W / 2)) (Z.of_nat W)),
    (Z.leb_spec (Z.abs (Z.of_nat y - d)) (Z.of_nat (W / 2))); cbn [andb]; try reflexivity; lia.
Qed.
Lemma touched_tap K W os d f y : W mod 2 = 1 -> touched W d y = true ->
  K (Z.to_nat (Z.of_nat os * (Z.of_nat (Z.to_nat (Z.of_nat y - d + Z.of_nat (W / 2))) + 1) + f)) = tap K W os d f y.
Proof.
  intros HW H. unfold tap. unfold touched in H. rewrite H. apply Z.leb_le in H.
  assert (H2 : (W + 1) / 2 = W / 2 + 1) by (pose proof (Nat.div_mod W 2 ltac:(lia)); symmetry; apply Nat.div_unique_exact; lia).
  f_equal. f_equal. rewrite H2. rewrite Z2Nat.id by lia. rewrite Nat2Z.inj_mul, Nat2Z.inj_add. change (Z.of_nat 1) with 1%Z. ring.
Qed.
Lemma untouched_tap K W os d f y : touched W d y = false -> tap K W os d f y = 0%R.
Proof. unfold touched, tap. now intros ->. Qed.

Section Scatter.
  Context (fl : R -> R) (u : R) (Hu : roundoff fl u).
  Notation near := (near u).
  Lemma near_sum k0 n (t' t m : nat -> R) (body : nat -> R -> R) : (forall i s, i < n -> body i s = fl (s + t' i)%R) -> (forall i, i < n -> near k0 (t' i) (t i) (m i)) ->
    forall k s' s a, k0 <= k -> near k s' s a -> near (k + n) (for_ n body s') (s + rsum n t)%R (a + rsum n m)%R.
  Proof.
    induction n as [|n IH]; intros Hb Ht k s' s a Hk N.
    - cbn [for_]. change (rsum 0 t) with 0%R. change (rsum 0 m) with 0%R. rewrite !Rplus_0_r, Nat.add_0_r. exact N.
    - cbn [for_]. rewrite Hb by lia. replace (k + S n) with (S (k + n)) by lia. apply (near_fl fl u Hu).
      rewrite !rsum_S, <- !Rplus_assoc. apply near_plus.
      + apply IH; auto.
      + apply (near_mono fl u Hu k0); [lia|]. apply Ht. lia.
  Qed.
  Lemma near_mult x y : near 1 (fl (x * y)) (x * y)%R (Rabs (x * y)).
  Proof. apply (near_fl fl u Hu 0). apply near_self. Qed.

  Context (K : arr R) (W os npix : nat) (su sv : R) (du fu dv fv : Z) (HW : W mod 2 = 1) (Ho : 0 < os)
    (Pu : placed os (position npix su) du fu) (Pv : placed os (position npix sv) dv fv).
  Lemma scatter_rounded_value grid s : exists g' cw, scatter_rounded fl unpacked_index su sv npix grid s (kernel_of K W os) = Ok (g', cw) /\
    (forall y x, y < npix -> x < npix -> g' y x = if touched W dv y && touched W du x
       then add_tap fl (grid y x) s (fl (tap K W os dv fv y * tap K W os du fu x)) else grid y x) /\
    near (1 + W * W) cw (all_taps K W os fv * all_taps K W os fu)%R (all_taps (positive K) W os fv * all_taps (positive K) W os fu)%R.
  Proof.
    destruct (du_eq os npix su du fu Pu) as (Edu & Efu). destruct (dv_eq os npix sv dv fv Pv) as (Edv & Efv).
    set (ku := fun t => K (Z.to_nat (Z.of_nat os * (Z.of_nat t + 1) + fu))). set (kv := fun t => K (Z.to_nat (Z.of_nat os * (Z.of_nat t + 1) + fv))).
    unfold scatter_rounded. cbn [width oversampling nsamples samples kernel_of]. rewrite Edu, Edv, Efu, Efv.
    set (gv := fun tv => (dv + Z.of_nat tv - Z.of_nat (W / 2))%Z). set (gu := fun tu => (du + Z.of_nat tu - Z.of_nat (W / 2))%Z).
    set (inner := fun tv tu (gc : arr2 RC * R) =>
      (if inside npix (gv tv) && inside npix (gu tu) then upd2 (fst gc) (Z.to_nat (gv tv)) (Z.to_nat (gu tu)) (add_tap fl (fst gc (Z.to_nat (gv tv)) (Z.to_nat (gu tu))) s (fl (kv tv * ku tu))) else fst gc,
       fl (snd gc + fl (kv tv * ku tu)))).
    rewrite (forM_pure W _ (fun tv gc => for_ W (inner tv) gc)).
    2: { intros tv st Htv. rewrite (read_unpacked K W os fv tv Ho (placed_bound _ _ _ _ Pv) Htv). cbn [bind]. apply forM_pure. intros tu st' Htu.
         rewrite (read_unpacked K W os fu tu Ho (placed_bound _ _ _ _ Pu) Htu). reflexivity. }
    match goal with |- context [for_ W ?b (grid, 0%R)] => set (body := b) end. set (r := for_ W body (grid, 0%R)).
    exists (fst r), (snd r). split; [now destruct r|]. split.
    - intros y x Hy Hx. unfold r. set (iv := (Z.of_nat y - dv + Z.of_nat (W / 2))%Z). set (iu := (Z.of_nat x - du + Z.of_nat (W / 2))%Z).
      rewrite (single_hit (fun gc : arr2 RC * R => fst gc y x) W body (fun g => if (0 <=? iu)%Z && (iu <? Z.of_nat W)%Z then add_tap fl g s (fl (kv (Z.to_nat iv) * ku (Z.to_nat iu))) else g) iv).
      + cbn [fst]. unfold iv, iu. rewrite !touched_range by exact HW.
        destruct (touched W dv y) eqn:Tv; cbn [andb]; [|reflexivity]. destruct (touched W du x) eqn:Tu; [|reflexivity].
        unfold kv, ku. now rewrite !touched_tap by assumption.
      + intros tv st Htv. unfold body.
        rewrite (single_hit (fun gc : arr2 RC * R => fst gc y x) W (inner tv) (fun g => if (Z.of_nat tv =? iv)%Z then add_tap fl g s (fl (kv (Z.to_nat iv) * ku (Z.to_nat iu))) else g) iu).
        * destruct (Z.eqb_spec (Z.of_nat tv) iv); [reflexivity|]. now match goal with |- (if ?b then _ else _) = _ => destruct b end.
        * intros tu st' Htu. unfold inner. cbn [fst].
          destruct (inside npix (gv tv)) eqn:I; cbn [andb].
          2: { assert (Z.of_nat tv <> iv). { intros E. unfold gv in I. rewrite E in I. unfold iv, inside in I. replace (dv + (Z.of_nat y - dv + Z.of_nat (W / 2)) - Z.of_nat (W / 2))%Z with (Z.of_nat y) in I by lia.
                 destruct (Z.leb_spec 0 (Z.of_nat y)), (Z.ltb_spec (Z.of_nat y) (Z.of_nat npix)); cbn in I; try discriminate; lia. }
               destruct (Z.eqb_spec (Z.of_nat tv) iv); [contradiction|]. now destruct (Z.eqb _ _). }
          destruct (inside npix (gu tu)) eqn:J; cbn [andb].
          2: { assert (Z.of_nat tu <> iu). { intros E. unfold gu in J. rewrite E in J. unfold iu, inside in J. replace (du + (Z.of_nat x - du + Z.of_nat (W / 2)) - Z.of_nat (W / 2))%Z with (Z.of_nat x) in J by lia.
                 destruct (Z.leb_spec 0 (Z.of_nat x)), (Z.ltb_spec (Z.of_nat x) (Z.of_nat npix)); cbn in J; try discriminate; lia. }
               destruct (Z.eqb_spec (Z.of_nat tu) iu); [contradiction|]. reflexivity. }
          apply andb_prop in I, J. destruct I as (I1 & I2), J as (J1 & J2). apply Z.leb_le in I1, J1. apply Z.ltb_lt in I2, J2.
          unfold upd2. unfold gv, gu in *.
          destruct (Nat.eqb_spec y (Z.to_nat (dv + Z.of_nat tv - Z.of_nat (W / 2)))) as [Ey|Ny], (Z.eqb_spec (Z.of_nat tv) iv) as [Ev|Nv]; unfold iv in *; try lia; cbn [andb].
          -- destruct (Nat.eqb_spec x (Z.to_nat (du + Z.of_nat tu - Z.of_nat (W / 2)))) as [Ex|Nx], (Z.eqb_spec (Z.of_nat tu) iu) as [Eu|Nu]; unfold iu in *; try lia; [|reflexivity].
             rewrite <- Ev, <- Eu, !Nat2Z.id, <- Ey, <- Ex. reflexivity.
          -- now destruct (Z.eqb _ _).
    - assert (A : forall n st k e m, n <= W -> 1 <= k -> near k (snd st) e m ->
        near (k + n * W) (snd (for_ n body st)) (e + rsum n (fun tv => (kv tv * rsum W ku)%R))%R (m + rsum n (fun tv => (Rabs (kv tv) * rsum W (fun tu => Rabs (ku tu)))%R))%R).
      { induction n as [|n IH]; intros st k e m Hn Hk N.
        - cbn [for_ Nat.mul]. change (rsum 0 _) with 0%R. rewrite !Rplus_0_r, Nat.add_0_r. exact N.
        - cbn [for_]. specialize (IH st k e m ltac:(lia) Hk N). set (st1 := for_ n body st) in *.
          assert (B : snd (body n st1) = for_ W (fun tu z => fl (z + fl (kv n * ku tu))%R) (snd st1)).
          { unfold body. generalize st1. intros q. generalize W at 1 2. intros w. induction w as [|j IHj]; [reflexivity|]. cbn [for_]. unfold inner at 1. cbn [snd]. now rewrite IHj. }
          rewrite B. replace (k + S n * W) with ((k + n * W) + W) by lia. rewrite !rsum_S, <- !Rplus_assoc.
          replace (kv n * rsum W ku)%R with (rsum W (fun tu => kv n * ku tu)%R) by apply rsum_l.
          replace (Rabs (kv n) * rsum W (fun tu => Rabs (ku tu)))%R with (rsum W (fun tu => Rabs (kv n * ku tu))).
          2: { rewrite <- rsum_l. apply (csum_ext (K := RR)). intros i _. apply Rabs_mult. }
          apply (near_sum 1 W (fun tu => fl (kv n * ku tu)) (fun tu => (kv n * ku tu)%R) (fun tu => Rabs (kv n * ku tu)) (fun tu z => fl (z + fl (kv n * ku tu))%R)); [reflexivity| |lia|exact IH].
          intros i _. apply near_mult. }
      specialize (A W (grid, 0%R) 1 0%R 0%R (Nat.le_refl _) (Nat.le_refl _)). cbn [snd] in A.
      assert (N0 : near 1 0 0 0). { apply (near_mono fl u Hu 0); [lia|]. pose proof (near_self u 0) as N. now rewrite Rabs_R0 in N. }
      specialize (A N0). rewrite !Rplus_0_l in A. fold r in A. unfold all_taps. fold kv ku.
      change (csum (K := RR) W (fun t => K (Z.to_nat (Z.of_nat os * (Z.of_nat t + 1) + fv)))) with (rsum W kv).
      change (csum (K := RR) W (fun t => K (Z.to_nat (Z.of_nat os * (Z.of_nat t + 1) + fu)))) with (rsum W ku).
      change (csum (K := RR) W (fun t => positive K (Z.to_nat (Z.of_nat os * (Z.of_nat t + 1) + fv)))) with (rsum W (fun t => Rabs (kv t))).
      change (csum (K := RR) W (fun t => positive K (Z.to_nat (Z.of_nat os * (Z.of_nat t + 1) + fu)))) with (rsum W (fun t => Rabs (ku t))).
      rewrite (rsum_r W (rsum W ku) kv), (rsum_r W _ (fun tv => Rabs (kv tv))) in A.
      exact A.
  Qed.
End Scatter.

Lemma forM_inv {T} n (body : nat -> T -> res T) (P : nat -> T -> Prop) s : P 0 s ->
  (forall i s, i < n -> P i s -> exists s', body i s = Ok s' /\ P (S i) s') -> exists s', forM n body s = Ok s' /\ P n s'.
Proof.
  intros H0. induction n as [|n IH]; intros H; [now exists s|]. destruct IH as (s1 & E1 & P1); [intros; apply H; auto; lia|].
  destruct (H n s1) as (s2 & E2 & P2); [lia|exact P1|]. exists s2. split; [|exact P2]. cbn [forM]. now rewrite E1.
Qed.
Lemma tap_positive K W os d f y : tap (positive K) W os d f y = Rabs (tap K W os d f y).
Proof. unfold tap, positive. destruct (_ <=? _)%Z; [reflexivity|now rewrite Rabs_R0]. Qed.
Section Stack.
  Context (fl : R -> R) (u : R) (Hu : roundoff fl u).
  Notation near := (near u).
  Context (K : arr R) (W os npix nrow nchan : nat) (cm : arr nat) (su sv : arr2 R) (du fu dv fv : nat -> nat -> Z) (HW : W mod 2 = 1) (Ho : 0 < os)
    (Pu : all_placed os npix nrow nchan su du fu) (Pv : all_placed os npix nrow nchan sv dv fv) (s : arr2 RC).
  Let term r c y x (z : R) : R := (tap K W os (dv r c) (fv r c) y * tap K W os (du r c) (fu r c) x * z)%R.
  Let so_far (r c b : nat) (f : nat -> nat -> R) : R := (over_band (K := RR) r nchan cm b f + rsum c (fun c => if Nat.eqb (cm c) b then f r c else 0))%R.
  Lemma so_far_S r c b f : so_far r (S c) b f = (so_far r c b f + (if Nat.eqb (cm c) b then f r c else 0))%R.
  Proof. unfold so_far. rewrite rsum_S. ring. Qed.
  Lemma so_far_row r b f : so_far (S r) 0 b f = so_far r nchan b f.
  Proof. unfold so_far. change (rsum 0 _) with 0%R. rewrite Rplus_0_r. reflexivity. Qed.
  Lemma near_skip k x' x m : near k x' x m -> near (S k) x' (x + 0)%R (m + 0)%R.
  Proof. intros N. rewrite !Rplus_0_r. apply (near_mono fl u Hu k); [lia|exact N]. Qed.
  Lemma step_near k g e m r c y x z : 2 <= k -> near k g e m ->
    near (S k) (if touched W (dv r c) y && touched W (du r c) x then fl (g + fl (fl (tap K W os (dv r c) (fv r c) y * tap K W os (du r c) (fu r c) x) * z)) else g)
      (e + term r c y x z)%R (m + Rabs (term r c y x z))%R.
  Proof.
    intros Hk N. unfold term. destruct (touched W (dv r c) y) eqn:Tv; cbn [andb].
    2: { rewrite (untouched_tap K W os _ (fv r c) y Tv), !Rmult_0_l, Rabs_R0. now apply near_skip. }
    destruct (touched W (du r c) x) eqn:Tu.
    2: { rewrite (untouched_tap K W os _ (fu r c) x Tu), Rmult_0_r, Rmult_0_l, Rabs_R0. now apply near_skip. }
    apply (near_fl fl u Hu). apply near_plus; [exact N|]. apply (near_mono fl u Hu 2); [lia|]. apply (near_fl fl u Hu).
    destruct (near_mult fl u Hu (tap K W os (dv r c) (fv r c) y) (tap K W os (du r c) (fu r c) x)) as (A & _). split; [|lra].
    replace (fl (tap K W os (dv r c) (fv r c) y * tap K W os (du r c) (fu r c) x) * z - tap K W os (dv r c) (fv r c) y * tap K W os (du r c) (fu r c) x * z)%R
      with ((fl (tap K W os (dv r c) (fv r c) y * tap K W os (du r c) (fu r c) x) - tap K W os (dv r c) (fv r c) y * tap K W os (du r c) (fu r c) x) * z)%R by ring.
    rewrite !(Rabs_mult _ z), <- Rmult_assoc. apply Rmult_le_compat_r; [apply Rabs_pos|exact A].
  Qed.
  Let Inv (r c : nat) (st : arr3 RC * arr R) : Prop := forall b,
    (forall part y x, part = fst \/ part = snd -> y < npix -> x < npix ->
      near (r * nchan + c + 2) (part (fst st b y x)) (so_far r c b (fun r c => term r c y x (part (s r c)))) (so_far r c b (fun r c => Rabs (term r c y x (part (s r c)))))) /\
    near (r * nchan + c + 1 + W * W) (snd st b) (so_far r c b (fun r c => (all_taps K W os (fv r c) * all_taps K W os (fu r c))%R))
      (so_far r c b (fun r c => (all_taps (positive K) W os (fv r c) * all_taps (positive K) W os (fu r c))%R)).
  Lemma stack_inv : exists st, stack_rounded fl unpacked_index nrow nchan cm su sv npix s (kernel_of K W os) = Ok st /\ Inv nrow 0 st.
  Proof.
    unfold stack_rounded. apply (forM_inv nrow _ (fun r => Inv r 0)).
    - intros b. unfold so_far. change (rsum 0 _) with 0%R. rewrite !Rplus_0_r.
      assert (Z : forall k, near k 0 0 0). { intros k. apply (near_mono fl u Hu 0); [lia|]. pose proof (near_self u 0) as N. now rewrite Rabs_R0 in N. }
      split; [|apply Z]. intros part y x Hp _ _. change (rsum 0 _) with 0%R. rewrite !Rplus_0_r. destruct Hp as [->| ->]; apply Z.
    - intros r st Hr I0. cut (exists s', forM nchan (fun c (st : arr3 RC * arr R) =>
        do! (grid, cw) <- scatter_rounded fl unpacked_index (su r c) (sv r c) npix (fst st (cm c)) (s r c) (kernel_of K W os);
        Ok (fun b => if Nat.eqb b (cm c) then grid else fst st b, upd (snd st) (cm c) (fl (snd st (cm c) + cw)))) st = Ok s' /\ Inv r nchan s').
      { intros (s' & E & I). exists s'. split; [exact E|]. intros b. destruct (I b) as (I1 & I2). rewrite !so_far_row.
        replace (S r * nchan + 0) with (r * nchan + nchan) by lia. split; [|exact I2]. intros part y x Hp Hy Hx. rewrite !so_far_row. now apply I1. }
      apply (forM_inv nchan _ (fun c => Inv r c)); [exact I0|]. clear st I0. intros c st Hc I.
      destruct (scatter_rounded_value fl u Hu K W os npix (su r c) (sv r c) (du r c) (fu r c) (dv r c) (fv r c) HW Ho (Pu r c Hr Hc) (Pv r c Hr Hc) (fst st (cm c)) (s r c)) as (g & cw & E & Hg & Nw).
      rewrite E. cbn [bind]. eexists. split; [reflexivity|]. intros b. cbn [fst snd]. destruct (I b) as (I1 & I2). unfold upd. rewrite !so_far_S. rewrite (Nat.eqb_sym (cm c) b).
      replace (r * nchan + S c) with (S (r * nchan + c)) by lia. destruct (Nat.eqb_spec b (cm c)) as [->|Nb]; split.
      + intros part y x Hp Hy Hx. rewrite !so_far_S, Nat.eqb_refl, Hg by assumption.
        pose proof (step_near (r * nchan + c + 2) _ _ _ r c y x (part (s r c)) ltac:(lia) (I1 part y x Hp Hy Hx)) as Q. cbn [Nat.add].
        destruct (touched W (dv r c) y && touched W (du r c) x); [|exact Q]. destruct Hp as [->| ->]; exact Q.
      + cbn [Nat.add]. apply (near_fl fl u Hu). apply near_plus; [exact I2|]. apply (near_mono fl u Hu (1 + W * W)); [lia|exact Nw].
      + intros part y x Hp Hy Hx. rewrite !so_far_S. destruct (Nat.eqb_spec (cm c) b); [congruence|]. cbn [Nat.add]. apply near_skip. now apply I1.
      + cbn [Nat.add]. now apply near_skip.
  Qed.
  Lemma stack_value : exists G w, stack_rounded fl unpacked_index nrow nchan cm su sv npix s (kernel_of K W os) = Ok (G, w) /\ forall b,
    (forall part y x, part = fst \/ part = snd -> y < npix -> x < npix ->
      near (nrow * nchan + 2) (part (G b y x)) (cell_sum K W os nrow nchan cm du fu dv fv (parts part s) b y x)
        (cell_sum (positive K) W os nrow nchan cm du fu dv fv (sizes_of (parts part s)) b y x)) /\
    near (nrow * nchan + W * W + 1) (w b) (weight_sum K W os nrow nchan cm fu fv b) (weight_sum (positive K) W os nrow nchan cm fu fv b).
  Proof.
    destruct stack_inv as ((G & w) & E & I). exists G, w. split; [exact E|]. intros b. destruct (I b) as (I1 & I2).
    assert (Z : forall f, so_far nrow 0 b f = over_band (K := RR) nrow nchan cm b f). { intros f. unfold so_far. change (rsum 0 _) with 0%R. apply Rplus_0_r. }
    rewrite !Z in I2. split.
    - intros part y x Hp Hy Hx. specialize (I1 part y x Hp Hy Hx). rewrite !Z in I1. rewrite Nat.add_0_r in I1.
      assert (Q : cell_sum (positive K) W os nrow nchan cm du fu dv fv (sizes_of (parts part s)) b y x = over_band (K := RR) nrow nchan cm b (fun r c => Rabs (term r c y x (part (s r c))))).
      { unfold cell_sum, over_band. apply (csum_ext (K := RR)). intros r _. apply (csum_ext (K := RR)). intros c _. destruct (Nat.eqb (cm c) b); [|reflexivity].
        unfold term, sizes_of, parts. now rewrite !tap_positive, !Rabs_mult. }
      rewrite Q. exact I1.
    - replace (nrow * nchan + W * W + 1) with (nrow * nchan + 0 + 1 + W * W) by lia. exact I2.
  Qed.
End Stack.
