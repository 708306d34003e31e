From Coq Require Import Reals Lra String.
From Verif Require Import Prelude PreludeFacts CRing CplxR LoopFacts RimeModel RimeSpec.
Open Scope R_scope.

Lemma phase_loop nsrc nrow nchan (lm uvw : arr2 R) frequency c s r f :
  (s < nsrc)%nat -> (r < nrow)%nat -> (f < nchan)%nat ->
  (for_ nsrc (fun source k =>
        let l := lm source 0%nat in let m := lm source 1%nat in
        let n := sqrt (1 - l ^ 2 - m ^ 2) - 1 in
        for_ nrow (fun row k =>
          let u := uvw row 0%nat in let v := uvw row 1%nat in let w := uvw row 2%nat in
          let real_phase := c * (l * u + m * v + n * w) in
          for_ nchan (fun chan k =>
            let p := real_phase * frequency chan in
            let k1 := upd3 k source row chan ((cos p, snd (k source row chan)) : RC) in
            upd3 k1 source row chan ((fst (k1 source row chan), sin p) : RC)) k) k)
      (fun _ _ _ => (c0 : RC))) s r f
  = cis (c * frequency f * (lm s 0%nat * uvw r 0%nat + lm s 1%nat * uvw r 1%nat + n1 (lm s 0%nat) (lm s 1%nat) * uvw r 2%nat)).
Proof.
  intros Hs Hr Hf.
  set (v := cis _).
  apply (for_at (fun k : arr3 RC => k s r f) (fun _ => v) s).
  - exact Hs.
  - intros i k Hi Ne. cbv beta zeta. apply (for_frame (fun k : arr3 RC => k s r f)). intros j k1 Hj.
    apply (for_frame (fun k : arr3 RC => k s r f)). intros x k2 Hx.
    rewrite !upd3_neq by auto. reflexivity.
  - intros k. cbv beta zeta. apply (for_at (fun k : arr3 RC => k s r f) (fun _ => v) r).
    + exact Hr.
    + intros j k1 Hj Ne. apply (for_frame (fun k : arr3 RC => k s r f)). intros x k2 Hx.
      rewrite !upd3_neq by auto. reflexivity.
    + intros k1. apply (for_at (fun k : arr3 RC => k s r f) (fun _ => v) f).
      * exact Hf.
      * intros x k2 Hx Ne. rewrite !upd3_neq by auto. reflexivity.
      * intros k2. rewrite !upd3_eq. cbn [fst]. unfold v, cis, n1.
        replace (1 - lm s 0%nat ^ 2 - lm s 1%nat ^ 2) with (1 - lm s 0%nat * lm s 0%nat - lm s 1%nat * lm s 1%nat) by ring.
        f_equal; f_equal; ring.
Qed.

Theorem phase_delay_fourier nsrc nrow nchan lm uvw frequency :
  exists k, phase_delay nsrc nrow nchan lm uvw frequency "fourier" = Ok k /\
    forall s r f, (s < nsrc)%nat -> (r < nrow)%nat -> (f < nchan)%nat ->
      k s r f = cis (- delay (lm s 0%nat) (lm s 1%nat) (uvw r 0%nat) (uvw r 1%nat) (uvw r 2%nat) (frequency f)).
Proof.
  eexists. split; [reflexivity|]. intros s r f Hs Hr Hf. rewrite phase_loop by auto. f_equal.
  unfold delay, minus_two_pi_over_c, two_pi_over_c, light, lightspeed. field.
Qed.
Theorem phase_delay_casa nsrc nrow nchan lm uvw frequency :
  exists k, phase_delay nsrc nrow nchan lm uvw frequency "casa" = Ok k /\
    forall s r f, (s < nsrc)%nat -> (r < nrow)%nat -> (f < nchan)%nat ->
      k s r f = cis (delay (lm s 0%nat) (lm s 1%nat) (uvw r 0%nat) (uvw r 1%nat) (uvw r 2%nat) (frequency f)).
Proof.
  eexists. split; [reflexivity|]. intros s r f Hs Hr Hf. rewrite phase_loop by auto. f_equal.
  unfold delay, minus_two_pi_over_c, two_pi_over_c, light, lightspeed. field.
Qed.
Theorem phase_delay_unknown nsrc nrow nchan lm uvw frequency conv : conv <> "fourier"%string -> conv <> "casa"%string ->
  phase_delay nsrc nrow nchan lm uvw frequency conv = Raise ValueError.
Proof.
  intros H1 H2. unfold phase_delay, phase_constant.
  destruct (String.eqb_spec conv "fourier"); [contradiction|]. destruct (String.eqb_spec conv "casa"); [contradiction|]. reflexivity.
Qed.
Lemma phase_delay_ok nsrc nrow nchan lm uvw frequency conv k : phase_delay nsrc nrow nchan lm uvw frequency conv = Ok k ->
  exists e, (e = 1 /\ conv = "casa"%string \/ e = -1 /\ conv = "fourier"%string) /\
    forall s r f, (s < nsrc)%nat -> (r < nrow)%nat -> (f < nchan)%nat ->
      k s r f = cis (e * delay (lm s 0%nat) (lm s 1%nat) (uvw r 0%nat) (uvw r 1%nat) (uvw r 2%nat) (frequency f)).
Proof.
  intros H. destruct (String.eqb_spec conv "fourier") as [->|N1].
  - exists (-1). split; auto. destruct (phase_delay_fourier nsrc nrow nchan lm uvw frequency) as (k' & E & V).
    rewrite E in H. injection H as <-. intros. rewrite V by auto. f_equal. ring.
  - destruct (String.eqb_spec conv "casa") as [->|N2].
    + exists 1. split; auto. destruct (phase_delay_casa nsrc nrow nchan lm uvw frequency) as (k' & E & V).
      rewrite E in H. injection H as <-. intros. rewrite V by auto. f_equal. ring.
    + rewrite phase_delay_unknown in H by auto. discriminate.
Qed.

Theorem phase_delay_unit nsrc nrow nchan lm uvw frequency conv k : phase_delay nsrc nrow nchan lm uvw frequency conv = Ok k ->
  forall s r f, (s < nsrc)%nat -> (r < nrow)%nat -> (f < nchan)%nat -> norm2 (k s r f) = 1.
Proof. intros H s r f Hs Hr Hf. destruct (phase_delay_ok _ _ _ _ _ _ _ _ H) as (e & _ & V). rewrite V by auto. apply cis_norm2. Qed.

Theorem phase_delay_conj nsrc nrow nchan lm uvw frequency :
  exists k k', phase_delay nsrc nrow nchan lm uvw frequency "fourier" = Ok k /\
    phase_delay nsrc nrow nchan lm uvw frequency "casa" = Ok k' /\
    forall s r f, (s < nsrc)%nat -> (r < nrow)%nat -> (f < nchan)%nat -> k s r f = cconj (k' s r f).
Proof.
  destruct (phase_delay_fourier nsrc nrow nchan lm uvw frequency) as (k & E & V).
  destruct (phase_delay_casa nsrc nrow nchan lm uvw frequency) as (k' & E' & V').
  exists k, k'. split; auto. split; auto. intros. rewrite V, V' by auto. apply cis_opp.
Qed.
Theorem phase_delay_neg nsrc nrow nchan lm uvw uvw' frequency conv k k' :
  phase_delay nsrc nrow nchan lm uvw frequency conv = Ok k ->
  phase_delay nsrc nrow nchan lm uvw' frequency conv = Ok k' ->
  (forall r i, (r < nrow)%nat -> (i < 3)%nat -> uvw' r i = - uvw r i) ->
  forall s r f, (s < nsrc)%nat -> (r < nrow)%nat -> (f < nchan)%nat -> k' s r f = cconj (k s r f).
Proof.
  intros H H' N s r f Hs Hr Hf. destruct (phase_delay_ok _ _ _ _ _ _ _ _ H) as (e & C & V).
  destruct (phase_delay_ok _ _ _ _ _ _ _ _ H') as (e' & C' & V').
  assert (e' = e). { destruct C as [(-> & ->)|(-> & ->)], C' as [(-> & X)|(-> & X)]; auto; discriminate. } subst e'.
  rewrite V, V' by auto. rewrite <- cis_opp. f_equal. unfold delay. rewrite !N by auto. unfold light. field.
Qed.
Theorem phase_delay_centre nsrc nrow nchan lm uvw frequency conv k s :
  phase_delay nsrc nrow nchan lm uvw frequency conv = Ok k -> lm s 0%nat = 0 -> lm s 1%nat = 0 ->
  forall r f, (s < nsrc)%nat -> (r < nrow)%nat -> (f < nchan)%nat -> k s r f = c1.
Proof.
  intros H E0 E1 r f Hs Hr Hf. destruct (phase_delay_ok _ _ _ _ _ _ _ _ H) as (e & _ & V). rewrite V by auto.
  rewrite <- cis_0. f_equal. unfold delay, n1. rewrite E0, E1. replace (1 - 0 * 0 - 0 * 0) with 1 by ring. rewrite sqrt_1. unfold light. field.
Qed.
Theorem phase_delay_add nsrc nrow nchan lm uvw1 uvw2 uvw frequency conv k1 k2 k :
  phase_delay nsrc nrow nchan lm uvw1 frequency conv = Ok k1 ->
  phase_delay nsrc nrow nchan lm uvw2 frequency conv = Ok k2 ->
  phase_delay nsrc nrow nchan lm uvw frequency conv = Ok k ->
  (forall r i, (r < nrow)%nat -> (i < 3)%nat -> uvw r i = uvw1 r i + uvw2 r i) ->
  forall s r f, (s < nsrc)%nat -> (r < nrow)%nat -> (f < nchan)%nat -> k s r f = cmul (k1 s r f) (k2 s r f).
Proof.
  intros H1 H2 H A s r f Hs Hr Hf.
  destruct (phase_delay_ok _ _ _ _ _ _ _ _ H1) as (e1 & C1 & V1).
  destruct (phase_delay_ok _ _ _ _ _ _ _ _ H2) as (e2 & C2 & V2).
  destruct (phase_delay_ok _ _ _ _ _ _ _ _ H) as (e & C & V).
  assert (e1 = e). { destruct C as [(-> & ->)|(-> & ->)], C1 as [(-> & X)|(-> & X)]; auto; discriminate. } subst e1.
  assert (e2 = e). { destruct C as [(-> & ->)|(-> & ->)], C2 as [(-> & X)|(-> & X)]; auto; discriminate. } subst e2.
  rewrite V, V1, V2 by auto. rewrite <- cis_add. f_equal. unfold delay. rewrite !A by auto. unfold light. field.
Qed.

(* ---------- feed rotation ---------- *)
Lemma feed_linear n pa g : exists o, feed_rotation n pa true "linear" g = Ok o /\
  forall i, (i < n)%nat -> o i 0%nat 0%nat = (cos (pa i), 0) /\ o i 0%nat 1%nat = (sin (pa i), 0) /\
    o i 1%nat 0%nat = (- sin (pa i), 0) /\ o i 1%nat 1%nat = (cos (pa i), 0).
Proof.
  eexists. split; [reflexivity|]. intros i Hi.
  assert (G : forall a b v, (forall o : arr3 RC, upd3 (upd3 (upd3 (upd3 o i 0%nat 0%nat ((cos (pa i), 0) : RC)) i 0%nat 1%nat ((sin (pa i), 0) : RC))
      i 1%nat 0%nat ((- sin (pa i), 0) : RC)) i 1%nat 1%nat ((cos (pa i), 0) : RC) i a b = v) ->
    for_ n (fun i o => let pa_cos := cos (pa i) in let pa_sin := sin (pa i) in
      let o := upd3 o i 0%nat 0%nat ((pa_cos, 0) : RC) in let o := upd3 o i 0%nat 1%nat ((pa_sin, 0) : RC) in
      let o := upd3 o i 1%nat 0%nat ((- pa_sin, 0) : RC) in upd3 o i 1%nat 1%nat ((pa_cos, 0) : RC)) g i a b = v).
  { intros a b v Hv. apply (for_at (fun o : arr3 RC => o i a b) (fun _ => v) i); auto.
    intros j o Hj Ne. cbv beta zeta. rewrite !upd3_neq by auto. reflexivity. }
  repeat split; apply G; intros o; unfold upd3; rewrite Nat.eqb_refl; reflexivity.
Qed.
Lemma feed_circular n pa g : exists o, feed_rotation n pa true "circular" g = Ok o /\
  forall i, (i < n)%nat -> o i 0%nat 0%nat = (cos (pa i), - sin (pa i)) /\ o i 0%nat 1%nat = (0, 0) /\
    o i 1%nat 0%nat = (0, 0) /\ o i 1%nat 1%nat = (cos (pa i), sin (pa i)).
Proof.
  eexists. split; [reflexivity|]. intros i Hi.
  assert (G : forall a b v, (forall o : arr3 RC, upd3 (upd3 (upd3 (upd3 o i 0%nat 0%nat ((cos (pa i), - sin (pa i)) : RC)) i 0%nat 1%nat ((0, 0) : RC))
      i 1%nat 0%nat ((0, 0) : RC)) i 1%nat 1%nat ((cos (pa i), sin (pa i)) : RC) i a b = v) ->
    for_ n (fun i o => let pa_cos := cos (pa i) in let pa_sin := sin (pa i) in
      let o := upd3 o i 0%nat 0%nat ((pa_cos, - pa_sin) : RC) in let o := upd3 o i 0%nat 1%nat ((0, 0) : RC) in
      let o := upd3 o i 1%nat 0%nat ((0, 0) : RC) in upd3 o i 1%nat 1%nat ((pa_cos, pa_sin) : RC)) g i a b = v).
  { intros a b v Hv. apply (for_at (fun o : arr3 RC => o i a b) (fun _ => v) i); auto.
    intros j o Hj Ne. cbv beta zeta. rewrite !upd3_neq by auto. reflexivity. }
  repeat split; apply G; intros o; unfold upd3; rewrite Nat.eqb_refl; reflexivity.
Qed.

Ltac two_by_two := intros [|[|?]] [|[|?]] ? ?; try lia.
Ltac trig x := let H := fresh in assert (H := sin2_cos2 x); unfold Rsqr in H.

Theorem feed_linear_orthogonal n pa g o : feed_rotation n pa true "linear" g = Ok o -> forall i, (i < n)%nat ->
  meq (mmul (o i) (mH (o i))) m_id /\ mdet (o i) = c1 /\ (forall a b, (a < 2)%nat -> (b < 2)%nat -> im (o i a b) = 0).
Proof.
  intros H i Hi. destruct (feed_linear n pa g) as (o' & E & V). rewrite E in H. injection H as <-.
  destruct (V i Hi) as (A & B & C & D). trig (pa i). repeat split.
  - two_by_two; unfold mmul, mH, m_id; rewrite ?A, ?B, ?C, ?D; cbn; f_equal; lra.
  - unfold mdet. rewrite A, B, C, D. cbn. f_equal; lra.
  - two_by_two; rewrite ?A, ?B, ?C, ?D; reflexivity.
Qed.
Theorem feed_linear_compose n pa g o : feed_rotation n pa true "linear" g = Ok o ->
  forall i j k, (i < n)%nat -> (j < n)%nat -> (k < n)%nat -> pa k = pa i + pa j -> meq (o k) (mmul (o i) (o j)).
Proof.
  intros H i j k Hi Hj Hk Ek. destruct (feed_linear n pa g) as (o' & E & V). rewrite E in H. injection H as <-.
  destruct (V i Hi) as (A & B & C & D). destruct (V j Hj) as (A' & B' & C' & D'). destruct (V k Hk) as (A2 & B2 & C2 & D2).
  rewrite Ek in *. rewrite cos_plus, sin_plus in *.
  two_by_two; unfold mmul; rewrite ?A, ?B, ?C, ?D, ?A', ?B', ?C', ?D', ?A2, ?B2, ?C2, ?D2; cbn; f_equal; lra.
Qed.
Theorem feed_circular_unitary n pa g o : feed_rotation n pa true "circular" g = Ok o -> forall i, (i < n)%nat ->
  meq (mmul (o i) (mH (o i))) m_id /\ o i 0%nat 1%nat = c0 /\ o i 1%nat 0%nat = c0 /\
  o i 0%nat 0%nat = cis (- pa i) /\ o i 1%nat 1%nat = cis (pa i).
Proof.
  intros H i Hi. destruct (feed_circular n pa g) as (o' & E & V). rewrite E in H. injection H as <-.
  destruct (V i Hi) as (A & B & C & D). trig (pa i). repeat split; auto.
  - two_by_two; unfold mmul, mH, m_id; rewrite ?A, ?B, ?C, ?D; cbn; f_equal; lra.
  - rewrite A. unfold cis. now rewrite cos_neg, sin_antisym.
Qed.
Theorem feed_basis_change n pa g g' o o' : feed_rotation n pa true "linear" g = Ok o ->
  feed_rotation n pa true "circular" g' = Ok o' -> forall i, (i < n)%nat ->
  meq (o' i) (mmul (mmul lin_circ (o i)) (mH lin_circ)).
Proof.
  intros H H' i Hi. destruct (feed_linear n pa g) as (x & E & V). rewrite E in H. injection H as <-.
  destruct (feed_circular n pa g') as (y & E' & V'). rewrite E' in H'. injection H' as <-.
  destruct (V i Hi) as (A & B & C & D). destruct (V' i Hi) as (A' & B' & C' & D').
  assert (S2 : / sqrt 2 * / sqrt 2 = 1 / 2).
  { rewrite <- Rinv_mult. rewrite sqrt_sqrt by lra. lra. }
  two_by_two; unfold mmul, mH, lin_circ; rewrite ?A, ?B, ?C, ?D, ?A', ?B', ?C', ?D'; cbn; revert S2;
    generalize (/ sqrt 2) as h; intros h S2; assert (S3 : h ^ 2 = 1 / 2) by (rewrite <- S2; ring); f_equal;
    ring_simplify; rewrite ?S3; lra.
Qed.
Theorem lin_circ_unitary : meq (mmul lin_circ (mH lin_circ)) m_id.
Proof.
  assert (S2 : / sqrt 2 * / sqrt 2 = 1 / 2).
  { rewrite <- Rinv_mult. rewrite sqrt_sqrt by lra. lra. }
  two_by_two; unfold mmul, mH, lin_circ, m_id; cbn; f_equal; nra.
Qed.
Theorem feed_invalid n pa is_float t g : (t <> "linear"%string /\ t <> "circular"%string) \/ is_float = false ->
  feed_rotation n pa is_float t g = Raise ValueError.
Proof.
  intros H. unfold feed_rotation. destruct (String.eqb_spec t "linear"); [|destruct (String.eqb_spec t "circular")]; cbn [bind]; auto;
    destruct H as [(A & B)| ->]; auto; contradiction.
Qed.

(* ---------- source transformation ---------- *)
Lemma set5_eq x i s t a c v : set5 x i s t a c v i s t a c = v.
Proof. unfold set5. now rewrite !Nat.eqb_refl. Qed.
Lemma set5_neq x i s t a c v i' s' t' a' c' : i' <> i \/ s' <> s \/ t' <> t \/ a' <> a \/ c' <> c -> set5 x i s t a c v i' s' t' a' c' = x i' s' t' a' c'.
Proof.
  intros H. unfold set5.
  destruct (Nat.eqb_spec i' i), (Nat.eqb_spec s' s), (Nat.eqb_spec t' t), (Nat.eqb_spec a' a), (Nat.eqb_spec c' c); cbn; auto. lia.
Qed.
Lemma nb_transform_value nsrc ntime na nchan lm pangles perr scaling frequency g i s t a c :
  (i < 3)%nat -> (s < nsrc)%nat -> (t < ntime)%nat -> (a < na)%nat -> (c < nchan)%nat ->
  nb_transform_sources nsrc ntime na nchan lm pangles perr scaling frequency g i s t a c =
  let x := pangles t a in let l := lm s 0%nat in let m := lm s 1%nat in
  match i with
  | O => (rot_l x l m + perr t a 0%nat) * scaling a c
  | S O => (rot_m x (rot_l x l m) m + perr t a 1%nat) * scaling a c
  | _ => frequency c
  end.
Proof.
  intros Hi Hs Ht Ha Hc. cbv zeta. set (v := match i with O => _ | S _ => _ end). unfold nb_transform_sources.
  apply (for_at (fun o : coords5 => o i s t a c) (fun _ => v) t); auto.
  { intros j x Hj Ne. cbv beta zeta. apply (for_frame (fun o : coords5 => o i s t a c)). intros j2 x2 Hj2.
    apply (for_frame (fun o : coords5 => o i s t a c)). intros j3 x3 Hj3.
    apply (for_frame (fun o : coords5 => o i s t a c)). intros j4 x4 Hj4. rewrite !set5_neq by auto. reflexivity. }
  intros x. apply (for_at (fun o : coords5 => o i s t a c) (fun _ => v) a); auto.
  { intros j2 x2 Hj2 Ne. cbv beta zeta.
    apply (for_frame (fun o : coords5 => o i s t a c)). intros j3 x3 Hj3.
    apply (for_frame (fun o : coords5 => o i s t a c)). intros j4 x4 Hj4. rewrite !set5_neq by auto. reflexivity. }
  intros x2. cbv beta zeta. apply (for_at (fun o : coords5 => o i s t a c) (fun _ => v) s); auto.
  { intros j3 x3 Hj3 Ne.
    apply (for_frame (fun o : coords5 => o i s t a c)). intros j4 x4 Hj4. rewrite !set5_neq by auto. reflexivity. }
  intros x3. apply (for_at (fun o : coords5 => o i s t a c) (fun _ => v) c); auto.
  { intros j4 x4 Hj4 Ne. rewrite !set5_neq by auto 6. reflexivity. }
  intros x4. unfold v, rot_l, rot_m. destruct i as [|[|[|i]]]; [..|lia].
  - rewrite set5_neq, set5_neq, set5_eq by auto. reflexivity.
  - rewrite set5_neq, set5_eq by auto. reflexivity.
  - rewrite set5_eq. reflexivity.
Qed.

Theorem transform_value nsrc ntime na nchan lm pangles perr scaling frequency g :
  exists o, transform_sources nsrc ntime ntime na nchan nchan na lm pangles perr scaling frequency g = Ok o /\
  forall s t a c, (s < nsrc)%nat -> (t < ntime)%nat -> (a < na)%nat -> (c < nchan)%nat ->
    let x := pangles t a in let l := lm s 0%nat in let m := lm s 1%nat in
    o 0%nat s t a c = (rot_l x l m + perr t a 0%nat) * scaling a c /\
    o 1%nat s t a c = (rot_m x (rot_l x l m) m + perr t a 1%nat) * scaling a c /\
    o 2%nat s t a c = frequency c.
Proof.
  eexists. split. { unfold transform_sources. rewrite !Nat.eqb_refl. reflexivity. }
  intros s t a c Hs Ht Ha Hc. cbv zeta. repeat split; rewrite nb_transform_value by (auto with arith; lia); reflexivity.
Qed.
Theorem transform_rotates_iff nsrc ntime na nchan lm pangles perr scaling frequency g o s t a c :
  transform_sources nsrc ntime ntime na nchan nchan na lm pangles perr scaling frequency g = Ok o ->
  (s < nsrc)%nat -> (t < ntime)%nat -> (a < na)%nat -> (c < nchan)%nat -> scaling a c <> 0 ->
  let x := pangles t a in let l := lm s 0%nat in let m := lm s 1%nat in
  (o 1%nat s t a c = (rot_m x l m + perr t a 1%nat) * scaling a c <-> sin x = 0 \/ rot_l x l m = l).
Proof.
  intros H Hs Ht Ha Hc Hn. cbv zeta.
  destruct (transform_value nsrc ntime na nchan lm pangles perr scaling frequency g) as (o' & E & V).
  rewrite E in H. injection H as <-. destruct (V s t a c Hs Ht Ha Hc) as (_ & -> & _). unfold rot_m. split.
  - intros H. apply Rmult_eq_reg_r in H; auto. destruct (Req_dec (sin (pangles t a)) 0) as [Z|Z]; auto. right.
    apply Rmult_eq_reg_r with (sin (pangles t a)); auto. lra.
  - intros [Z| ->]; auto. rewrite Z. f_equal. ring.
Qed.
Theorem transform_asserts nsrc ntime pt na pn nchan nf lm pangles perr scaling frequency g :
  (ntime <> pt \/ na <> pn \/ nchan <> nf) ->
  transform_sources nsrc ntime pt pn nchan nf na lm pangles perr scaling frequency g = Raise AssertionError.
Proof.
  intros H. unfold transform_sources. destruct (Nat.eqb_spec ntime pt), (Nat.eqb_spec na pn); cbn; auto.
  destruct (Nat.eqb_spec nchan nf); cbn; auto. lia.
Qed.
