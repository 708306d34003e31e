From Coq Require Import Reals Lra.
From Verif Require Import Prelude PreludeFacts CRing CplxR LoopFacts KernModel KernSpec KernProofs.
Close Scope R_scope.
Open Scope nat_scope.

Lemma uspace_position W os u : uspace W os = Ok u -> forall i, u i = sample_position W os i.
Proof.
  unfold uspace. destruct (Nat.eqb (W mod 2) 1) eqn:E; [|discriminate]. intros H i.
  assert (X : u i = (INR i / INR os - INR ((W + 2) / 2))%R) by (now inversion H). rewrite X. unfold sample_position. do 2 f_equal.
  apply half_odd in E. apply Nat.div_unique_exact; lia.
Qed.
Lemma uspace_ok W os : W mod 2 = 1 -> exists u, uspace W os = Ok u.
Proof. intros E. unfold uspace. rewrite E. cbn [Nat.eqb]. eauto. Qed.
(* sums over pairs of indices by one index *)
Lemma csum_pairs {K : cops} (L : claws K) n m (f : nat -> nat -> K) : csum (n * m) (fun p => f (p / m) (p mod m)) = csum n (fun i => csum m (f i)).
Proof.
  induction n as [|n IH]; [reflexivity|]. replace (S n * m) with (n * m + m) by lia. rewrite (csum_split L), IH. cbn [csum]. f_equal.
  apply csum_ext. intros i Hi. rewrite Nat.div_add_l by lia. rewrite Nat.div_small, Nat.add_0_r by exact Hi.
  rewrite Nat.add_comm, Nat.mod_add, Nat.mod_small by lia. reflexivity.
Qed.
Lemma expj_cis x : expj x = cis x.
Proof. reflexivity. Qed.
Section Dft.
  Variables (npix W os : nat).
  Lemma dft_value K n : W mod 2 = 1 -> 0 < npix -> exists d, compute_detaper_dft npix K n n W os = Ok d /\
    forall m l, m < npix -> l < npix -> d m l = modulus (transform npix W os n K m l).
  Proof.
    intros HW Hn. destruct (uspace_ok W os HW) as (u & Eu). unfold compute_detaper_dft. rewrite Eu. cbn [bind]. eexists. split; [reflexivity|].
    intros m l Hm Hl. unfold cabs, modulus. do 2 f_equal. unfold transform.
    rewrite <- (csum_pairs RC_laws n n (fun y x => cmul (ofR (K y x)) (cis (-2 * PI * (image_coordinate npix l * sample_position W os x + image_coordinate npix m * sample_position W os y))%R))).
    set (V := csum (n * n) _).
    assert (Em : (m * npix + l) / npix = m) by (rewrite Nat.div_add_l, Nat.div_small by lia; lia).
    assert (El : (m * npix + l) mod npix = l) by (rewrite Nat.add_comm, Nat.mod_add, Nat.mod_small by lia; reflexivity).
    rewrite (for_at (fun p : arr2 RC => p m l) (fun z => cadd z V) (m * npix + l)).
    - apply (Radd_0_l (law_ring RC RC_laws)).
    - nia.
    - intros p pk Hp Hpk. apply (for_frame (fun p : arr2 RC => p m l)). intros x pk' Hx. cbv zeta. rewrite upd2_neq; [reflexivity|].
      destruct (Nat.eq_dec m (p / npix)) as [->|]; [|auto]. destruct (Nat.eq_dec l (p mod npix)) as [->|]; [|auto].
      exfalso. apply Hpk. rewrite Nat.mul_comm. apply Nat.div_mod. lia.
    - intros pk. rewrite Em, El. rewrite (for_csum RC_laws (fun p : arr2 RC => p m l)
        (fun x => cmul (ofR (K (x / n) (x mod n))) (cis (-2 * PI * (image_coordinate npix l * sample_position W os (x mod n) + image_coordinate npix m * sample_position W os (x / n)))%R))); [reflexivity|].
      intros x pk' Hx. rewrite upd2_eq. rewrite !(uspace_position W os u Eu). unfold expj, image_coordinate. reflexivity.
  Qed.
  Definition transform1 (K : arr R) (n l : nat) : RC := csum n (fun x => cmul (ofR (K x)) (cis (-2 * PI * (image_coordinate npix l * sample_position W os x))%R)).
  Lemma separable_value K n : W mod 2 = 1 -> exists d, compute_detaper_dft_seperable npix K n W os = Ok d /\
    forall m l, m < npix -> l < npix -> d m l = modulus (cmul (transform1 K n m) (transform1 K n l)).
  Proof.
    intros HW. destruct (uspace_ok W os HW) as (u & Eu). unfold compute_detaper_dft_seperable. rewrite Eu. cbn [bind].
    set (pkX := for_ npix _ _).
    assert (X : forall l, l < npix -> pkX l = transform1 K n l).
    { intros l Hl. unfold pkX. rewrite (for_at (fun p : arr RC => p l) (fun z => cadd z (transform1 K n l)) l); auto.
      - apply (Radd_0_l (law_ring RC RC_laws)).
      - intros i s Hi Hil. apply (for_frame (fun p : arr RC => p l)). intros x pk' Hx. now rewrite upd_neq by auto.
      - intros s. unfold transform1. rewrite (for_csum RC_laws (fun p : arr RC => p l)
          (fun x => cmul (ofR (K x)) (cis (-2 * PI * (image_coordinate npix l * sample_position W os x))%R))); [reflexivity|].
        intros x pk' Hx. rewrite upd_eq, !(uspace_position W os u Eu). reflexivity. }
    eexists. split; [reflexivity|]. intros m l Hm Hl. cbv beta. rewrite !X by assumption. reflexivity.
  Qed.
  Lemma transform_outer K n m l : transform npix W os n (fun y x => K y * K x)%R m l = cmul (transform1 K n m) (transform1 K n l).
  Proof.
    unfold transform, transform1. rewrite <- (csum_mul_r RC_laws). apply csum_ext. intros y Hy. rewrite <- (csum_mul_l RC_laws). apply csum_ext. intros x Hx.
    replace (-2 * PI * (image_coordinate npix l * sample_position W os x + image_coordinate npix m * sample_position W os y))%R with
      (-2 * PI * (image_coordinate npix m * sample_position W os y) + -2 * PI * (image_coordinate npix l * sample_position W os x))%R by ring.
    rewrite cis_add. generalize (cis (-2 * PI * (image_coordinate npix m * sample_position W os y))%R) (cis (-2 * PI * (image_coordinate npix l * sample_position W os x))%R).
    intros [a b] [c d]. unfold ofR. apply injective_projections; cbn; ring.
  Qed.
End Dft.

(* Fourier transform by FFT *)
Lemma cis_turns (k : Z) x : cis (x + 2 * PI * IZR k) = cis x.
Proof.
  assert (P : forall (n : nat) y, cis (y + 2 * INR n * PI) = cis y) by (intros n y; unfold cis; now rewrite cos_period, sin_period).
  destruct (Z.le_gt_cases 0 k) as [H|H].
  - rewrite <- (P (Z.to_nat k) x). f_equal. rewrite INR_IZR_INZ, Z2Nat.id by exact H. ring.
  - rewrite <- (P (Z.to_nat (- k)) (x + 2 * PI * IZR k)%R). f_equal. rewrite INR_IZR_INZ, Z2Nat.id by lia. rewrite opp_IZR. ring.
Qed.
Lemma csum_rot n h (f : nat -> RC) : h < n -> csum n (fun i => f (Z.to_nat ((Z.of_nat i + Z.of_nat h) mod Z.of_nat n))) = csum n f.
Proof.
  intros H. replace n with ((n - h) + h) at 1 by lia. rewrite (csum_split RC_laws). transitivity (csum (h + (n - h)) f); [|f_equal; lia].
  rewrite (csum_split RC_laws h (n - h) f), (Radd_comm (law_ring RC RC_laws)). f_equal; apply csum_ext; intros i Hi; f_equal.
  - replace (Z.of_nat (n - h + i) + Z.of_nat h)%Z with (Z.of_nat i + 1 * Z.of_nat n)%Z by lia. rewrite Z.mod_add, Z.mod_small by lia. lia.
  - rewrite Z.mod_small by lia. lia.
Qed.
(* the phase of one axis after the shifts *)
Lemma shifted_phase n (q : Z) i h : 0 < n -> h < n -> i < n ->
  let k := Z.to_nat (q mod Z.of_nat n) in let i' := Z.to_nat ((Z.of_nat i + Z.of_nat h) mod Z.of_nat n) in
  exists t : Z, (-2 * PI * INR (k * i) / INR n)%R = (-2 * PI * (IZR q * (INR i' - INR h)) / INR n + 2 * PI * IZR t)%R.
Proof.
  intros Hn Hh Hi. cbv zeta.
  set (k := Z.to_nat (q mod Z.of_nat n)). set (i' := Z.to_nat ((Z.of_nat i + Z.of_nat h) mod Z.of_nat n)).
  assert (Ek : (Z.of_nat k = q - Z.of_nat n * (q / Z.of_nat n))%Z).
  { unfold k. rewrite Z2Nat.id by (apply Z.mod_pos_bound; lia). rewrite Z.mod_eq by lia. reflexivity. }
  assert (Ei : (Z.of_nat i' = Z.of_nat i + Z.of_nat h - Z.of_nat n * ((Z.of_nat i + Z.of_nat h) / Z.of_nat n))%Z).
  { unfold i'. rewrite Z2Nat.id by (apply Z.mod_pos_bound; lia). rewrite Z.mod_eq by lia. reflexivity. }
  exists ((q / Z.of_nat n) * Z.of_nat i - q * ((Z.of_nat i + Z.of_nat h) / Z.of_nat n))%Z.
  rewrite mult_INR, !INR_IZR_INZ, Ek, Ei. rewrite !minus_IZR, !plus_IZR, !mult_IZR.
  rewrite <- !INR_IZR_INZ. field. apply not_0_INR. lia.
Qed.
Lemma fft_shifted n (pk : arr2 RC) (q1 q2 : Z) : 0 < n ->
  fft2 n (ifftshift2 n pk) (Z.to_nat (q1 mod Z.of_nat n)) (Z.to_nat (q2 mod Z.of_nat n)) =
  csum n (fun i => csum n (fun j => cmul (pk i j) (cis (-2 * PI * (IZR q1 * (INR i - INR (n / 2)) + IZR q2 * (INR j - INR (n / 2))) / INR n)%R))).
Proof.
  intros Hn. assert (Hh : n / 2 < n) by (apply Nat.div_lt; lia). unfold fft2.
  etransitivity; [|apply (csum_rot n (n / 2)); exact Hh]. apply csum_ext. intros i Hi. cbv beta. etransitivity; [|apply (csum_rot n (n / 2)); exact Hh].
  apply csum_ext. intros j Hj. cbv beta. unfold ifftshift2, roll2.
  replace (Z.of_nat i - - Z.of_nat (n / 2))%Z with (Z.of_nat i + Z.of_nat (n / 2))%Z by lia. replace (Z.of_nat j - - Z.of_nat (n / 2))%Z with (Z.of_nat j + Z.of_nat (n / 2))%Z by lia.
  f_equal. destruct (shifted_phase n q1 i (n / 2) Hn Hh Hi) as (t1 & E1). destruct (shifted_phase n q2 j (n / 2) Hn Hh Hj) as (t2 & E2). cbv zeta in E1, E2.
  assert (Hn' : INR n <> 0%R) by (apply not_0_INR; lia).
  match goal with |- cis ?a = cis ?b => replace a with (b + 2 * PI * IZR (t1 + t2))%R; [apply cis_turns|] end.
  rewrite plus_IZR. unfold Rdiv in *. rewrite !Rmult_plus_distr_l, !Rmult_plus_distr_r. rewrite E1, E2. ring.
Qed.
(* a sum over the support of the padded kernel *)
Lemma csum_window n a k (f g : nat -> RC) : a + k <= n -> (forall i, i < n -> f i = if (a <=? i) && (i <? a + k) then g (i - a) else c0) ->
  csum n f = csum k g.
Proof.
  intros H E. replace n with (a + (k + (n - a - k))) by lia. rewrite !(csum_split RC_laws).
  rewrite (csum_ext a f (fun _ => c0)). 2: { intros i Hi. rewrite E by lia. destruct (Nat.leb_spec a i); [lia|reflexivity]. }
  rewrite (csum_ext (n - a - k) _ (fun _ => c0)). 2: { intros i Hi. rewrite E by lia. destruct (Nat.ltb_spec (a + (k + i)) (a + k)); [lia|now rewrite andb_false_r]. }
  rewrite (csum_ext k (fun i => f (a + i)) g).
  - rewrite !(csum_0 RC_laws). destruct (csum k g). apply injective_projections; cbn; ring.
  - intros i Hi. rewrite E by lia. destruct (Nat.leb_spec a (a + i)); [|lia]. destruct (Nat.ltb_spec (a + i) (a + k)); [|lia]. cbn [andb]. f_equal. lia.
Qed.
Lemma norm2_mul' (x y : RC) : norm2 (cmul x y) = (norm2 x * norm2 y)%R.
Proof. destruct x, y. unfold norm2, re, im. cbn. ring. Qed.
Lemma fft_value npix W os K : W mod 2 = 1 -> 0 < os -> W + 2 <= npix -> exists d, compute_detaper npix K (os * (W + 2)) (os * (W + 2)) os = Ok d /\
  forall m l, m < npix -> l < npix -> d m l = modulus (transform npix W os (os * (W + 2)) K m l).
Proof.
  intros HW Hos Hp. unfold compute_detaper. set (n := npix * os). set (k := os * (W + 2)).
  assert (Hkn : k <= n) by (unfold k, n; nia). assert (Hn : 0 < n) by (unfold n; nia).
  assert (A1 : k / 2 <= n / 2) by (apply Nat.div_le_mono; lia).
  assert (A2 : n / 2 - k / 2 + k <= n).
  { pose proof (Nat.div_mod k 2 ltac:(lia)). pose proof (Nat.div_mod n 2 ltac:(lia)). pose proof (Nat.mod_upper_bound k 2). pose proof (Nat.mod_upper_bound n 2). lia. }
  destruct (Nat.ltb_spec (n / 2) (k / 2)); [lia|]. destruct (Nat.ltb_spec n (n / 2 - k / 2 + k)); [lia|]. cbn [orb].
  eexists. split; [reflexivity|]. intros m l Hm Hl. set (a := n / 2 - k / 2). unfold cabs, modulus. f_equal.
  set (pk := fun i j => if (a <=? i) && (i <? a + k) && (a <=? j) && (j <? a + k) then ofR (K (i - a) (j - a)) else c0).
  unfold fftshift2, roll2.
  assert (A3 : npix / 2 <= n / 2) by (apply Nat.div_le_mono; unfold n; nia).
  replace (Z.of_nat (n / 2 - npix / 2 + m) - Z.of_nat (n / 2))%Z with (Z.of_nat m - Z.of_nat (npix / 2))%Z by lia.
  replace (Z.of_nat (n / 2 - npix / 2 + l) - Z.of_nat (n / 2))%Z with (Z.of_nat l - Z.of_nat (npix / 2))%Z by lia.
  rewrite fft_shifted by exact Hn. set (q1 := (Z.of_nat m - Z.of_nat (npix / 2))%Z). set (q2 := (Z.of_nat l - Z.of_nat (npix / 2))%Z).
  (* the centre of the padded kernel is c samples away from the one of the coordinates *)
  set (h := (W + 1) / 2). set (c := (INR os * INR h - INR (k / 2))%R).
  transitivity (norm2 (cmul (cis (-2 * PI * ((IZR q1 + IZR q2) * c) / INR n)%R) (transform npix W os k K m l))).
  2: { rewrite norm2_mul', cis_norm2. ring. }
  f_equal. unfold transform. rewrite <- (csum_mul_l RC_laws).
  assert (Q1 : image_coordinate npix m = (IZR q1 * / INR npix)%R) by (unfold image_coordinate, q1; rewrite minus_IZR, <- !INR_IZR_INZ; reflexivity).
  assert (Q2 : image_coordinate npix l = (IZR q2 * / INR npix)%R) by (unfold image_coordinate, q2; rewrite minus_IZR, <- !INR_IZR_INZ; reflexivity).
  rewrite Q1, Q2.
  apply (csum_window n a k); [unfold a; lia|]. intros i Hi.
  destruct ((a <=? i) && (i <? a + k)) eqn:Ei.
  2: { rewrite (csum_ext n _ (fun _ => c0)); [apply (csum_0 RC_laws)|]. intros j Hj. unfold pk. rewrite Ei. cbn [andb]. apply injective_projections; cbn; ring. }
  rewrite <- (csum_mul_l RC_laws). apply (csum_window n a k); [unfold a; lia|]. intros j Hj. unfold pk. rewrite Ei. cbn [andb].
  destruct ((a <=? j) && (j <? a + k)) eqn:Ej.
  2: { apply injective_projections; cbn; ring. }
  match goal with |- cmul ?x (cis ?s) = cmul (cis ?t) (cmul ?y (cis ?r)) => replace s with (t + r)%R end.
  - rewrite cis_add. generalize (ofR (K (i - a) (j - a))). intros z.
    rewrite !(Rmul_assoc (law_ring RC RC_laws)). f_equal. apply (Rmul_comm (law_ring RC RC_laws)).
  - apply andb_prop in Ei, Ej. destruct Ei as (Ei & _), Ej as (Ej & _). apply Nat.leb_le in Ei, Ej.
    assert (Hh2 : INR (n / 2) = (INR a + INR (k / 2))%R) by (rewrite <- plus_INR; f_equal; unfold a; lia).
    unfold sample_position. fold h. rewrite Hh2, !minus_INR by assumption. unfold c, n. rewrite mult_INR.
    assert (INR npix <> 0%R) by (apply not_0_INR; lia). assert (INR os <> 0%R) by (apply not_0_INR; lia).
    field. split; assumption.
Qed.

Lemma kernel_shape W os a i :
  (forall k, sinc W os a = Ok k -> k i = (sinc_function (sample_position W os i * a) / csum (K := RR) (os * (W + 2)) (fun j => sinc_function (sample_position W os j * a)))%R) /\
  (forall k s, sinc W os 1 = Ok s -> hanningsinc W os a = Ok k -> let v j := (s j * hanning W a (sample_position W os j))%R in k i = (v i / csum (K := RR) (os * (W + 2)) v)%R).
Proof.
  split.
  - intros k. unfold sinc. destruct (uspace W os) as [u|] eqn:E; [|discriminate]. cbn [bind]. intros H.
    assert (X : k i = (np_sinc (u i * a) / np_sum (os * (W + 2)) (fun i => np_sinc (u i * a)))%R) by (now inversion H). rewrite X, np_sum_csum.
    unfold sinc_function. unfold np_sinc. rewrite (uspace_position W os u E). f_equal. apply (csum_ext (K := RR)). intros j _. now rewrite (uspace_position W os u E).
  - intros k s Hs. unfold hanningsinc. destruct (uspace W os) as [u|] eqn:E; [|cbn [bind]; intros H; discriminate H]. cbn [bind]. rewrite Hs. cbn [bind]. cbv zeta. intros H.
    assert (X : k i = ((s i * (a + (1 - a) * cos (2 * PI / (INR (W + 2) + 1) * u i))) / np_sum (os * (W + 2)) (fun i => s i * (a + (1 - a) * cos (2 * PI / (INR (W + 2) + 1) * u i))))%R) by (now inversion H).
    rewrite X, np_sum_csum. unfold hanning. rewrite (uspace_position W os u E). f_equal. apply (csum_ext (K := RR)). intros j _. now rewrite (uspace_position W os u E).
Qed.
Lemma csum_normal n (v k : arr R) : (forall i, k i = (v i / csum (K := RR) n v)%R) -> csum (K := RR) n v <> 0%R -> csum (K := RR) n k = 1%R.
Proof.
  intros H N. rewrite (csum_ext (K := RR) n k (fun i => v i / np_sum n v)%R) by (intros i _; rewrite H, np_sum_csum; reflexivity).
  rewrite <- np_sum_csum. apply normalised. now rewrite np_sum_csum.
Qed.
Lemma kernel_unit W os a :
  (forall k, sinc W os a = Ok k -> csum (K := RR) (os * (W + 2)) (fun j => sinc_function (sample_position W os j * a)) <> 0%R -> csum (K := RR) (os * (W + 2)) k = 1%R) /\
  (forall k s, sinc W os 1 = Ok s -> hanningsinc W os a = Ok k -> csum (K := RR) (os * (W + 2)) (fun j => s j * hanning W a (sample_position W os j))%R <> 0%R ->
     csum (K := RR) (os * (W + 2)) k = 1%R).
Proof.
  split.
  - intros k H N. apply (csum_normal _ _ _ (fun i => proj1 (kernel_shape W os a i) k H) N).
  - intros k s Hs H N. apply (csum_normal _ _ _ (fun i => proj2 (kernel_shape W os a i) k s Hs H) N).
Qed.
Lemma centre_one npix W os K n d : 0 < npix -> compute_detaper_dft_seperable npix K n W os = Ok d -> csum (K := RR) n K = 1%R ->
  d (npix / 2) (npix / 2) = 1%R.
Proof.
  intros Hn H S. assert (HW : W mod 2 = 1).
  { revert H. unfold compute_detaper_dft_seperable, uspace. destruct (Nat.eqb_spec (W mod 2) 1); [auto|discriminate]. }
  destruct (separable_value npix W os K n HW) as (d' & E & V). rewrite H in E. injection E as <-.
  assert (L : npix / 2 < npix) by (apply Nat.div_lt; lia). rewrite V by exact L.
  assert (T : transform1 npix W os K n (npix / 2) = c1).
  { unfold transform1. transitivity (csum n (fun x => ofR (K x))).
    - apply csum_ext. intros x _. unfold image_coordinate. replace (-2 * PI * ((INR (npix / 2) - INR (npix / 2)) / INR npix * sample_position W os x))%R with 0%R.
      + unfold cis. rewrite cos_0, sin_0. unfold ofR. apply injective_projections; cbn; ring.
      + unfold Rminus. rewrite Rplus_opp_r. unfold Rdiv. ring.
    - transitivity (ofR (csum (K := RR) n K)); [|now rewrite S]. clear. induction n as [|n IH]; [reflexivity|]. cbn [csum]. rewrite IH. unfold ofR. apply injective_projections; cbn; ring. }
  rewrite T. unfold modulus. replace (norm2 (cmul c1 c1)) with 1%R; [apply sqrt_1|]. cbn. unfold norm2, re, im. cbn. ring.
Qed.
