(* Proofs for C56 *)
From Coq Require Import Reals Lra Lia.
From Verif Require Import Prelude PreludeFacts LoopFacts DftModel DftProofs SpiModel SpiSpec.
Open Scope R_scope.

Lemma total_ext n f g : (forall v, (v < n)%nat -> f v = g v) -> total n f = total n g.
Proof. induction n as [|n IH]; intros H; cbn; auto. rewrite IH by (intros; apply H; lia). now rewrite H by lia. Qed.
Lemma total_nonneg n f : (forall v, (v < n)%nat -> 0 <= f v) -> 0 <= total n f.
Proof. induction n as [|n IH]; intros H; cbn; [lra|]. assert (0 <= total n f) by (apply IH; intros; apply H; lia). assert (0 <= f n) by (apply H; lia). lra. Qed.
Lemma total_0 n f : (forall v, (v < n)%nat -> f v = 0) -> total n f = 0.
Proof. intros H. rewrite (total_ext n f (fun _ => 0)) by auto. clear. induction n as [|n IH]; cbn; [reflexivity|]. rewrite IH. lra. Qed.

(* --- one iteration is one step --- *)
Lemma sums_value n j0 j1 r wt : let s := channel_sums n j0 j1 r wt in
  lik s = inner n wt r r /\ jr0 s = inner n wt j0 r /\ jr1 s = inner n wt j1 r /\ hess00 s = inner n wt j0 j0 /\ hess01 s = inner n wt j0 j1 /\ hess11 s = inner n wt j1 j1.
Proof.
  unfold channel_sums, inner. cbv zeta. induction n as [|n IH]; [cbn; auto 10|]. rewrite for_S. set (s := for_ n _ _) in *. cbn [lik jr0 jr1 hess00 hess01 hess11 total].
  destruct IH as (-> & -> & -> & -> & -> & ->). auto 10.
Qed.
Definition at_ (p : R * R) s : fit := {| alphak := fst p; i0k := snd p; stats := s |}.
Definition stats_at n d wt w b mindet (p : R * R) : R * R * R * R :=
  let '(a, i) := p in (h_aa n wt w b a i, h_ii n wt w b a, floored mindet (det n wt w b a i), chi2 n d wt w b a i).
Lemma iteration_newton n d wt w b mindet p s : iteration n d wt w b mindet (at_ p s) =
  (at_ (newton n d wt w b mindet p) (Some (stats_at n d wt w b mindet p)), change p (newton n d wt w b mindet p)).
Proof.
  destruct p as [a i]. unfold iteration, at_, newton, stats_at, change. cbn [alphak i0k fst snd]. cbv zeta.
  set (j1 := fun v => b v * Rpower (w v) a). set (j0 := fun v => i * (b v * Rpower (w v) a) * ln (w v)). set (r := fun v => d v - i * (b v * Rpower (w v) a)).
  destruct (sums_value n j0 j1 r wt) as (E1 & E2 & E3 & E4 & E5 & E6).
  change (channel_sums n (fun v : nat => i * (b v * Rpower (w v) a) * ln (w v)) (fun v : nat => b v * Rpower (w v) a) (fun v : nat => d v - i * (b v * Rpower (w v) a)) wt) with (channel_sums n j0 j1 r wt).
  rewrite E1, E2, E3, E4, E5, E6.
  change (inner n wt r r) with (chi2 n d wt w b a i). change (inner n wt j0 r) with (g_a n d wt w b a i). change (inner n wt j1 r) with (g_i n d wt w b a i).
  change (inner n wt j0 j0) with (h_aa n wt w b a i). change (inner n wt j0 j1) with (h_ai n wt w b a i). change (inner n wt j1 j1) with (h_ii n wt w b a).
  fold (det n wt w b a i). fold (floored mindet (det n wt w b a i)).
  replace (- h_ai n wt w b a i * g_a n d wt w b a i + h_aa n wt w b a i * g_i n d wt w b a i) with (h_aa n wt w b a i * g_i n d wt w b a i - h_ai n wt w b a i * g_a n d wt w b a i) by ring. reflexivity.
Qed.
Fixpoint steps n d wt w b mindet (k : nat) (p : R * R) : R * R := match k with O => p | S k' => newton n d wt w b mindet (steps n d wt w b mindet k' p) end.
Lemma steps_shift n d wt w b mindet k p : steps n d wt w b mindet k (newton n d wt w b mindet p) = steps n d wt w b mindet (S k) p.
Proof. induction k as [|k IH]; auto. cbn [steps] in *. now rewrite IH. Qed.
Lemma iterate_steps n d wt w b mindet tol fuel : forall eps p s, tol < eps -> (0 < fuel)%nat -> exists k, (1 <= k <= fuel)%nat /\
  iterate fuel n d wt w b mindet tol eps (at_ p s) = at_ (steps n d wt w b mindet k p) (Some (stats_at n d wt w b mindet (steps n d wt w b mindet (k - 1) p))) /\
  (forall j, (j < k - 1)%nat -> tol < change (steps n d wt w b mindet j p) (steps n d wt w b mindet (S j) p)) /\
  (change (steps n d wt w b mindet (k - 1) p) (steps n d wt w b mindet k p) <= tol \/ k = fuel).
Proof.
  induction fuel as [|fuel IH]; intros eps p s He Hf; [lia|]. cbn [iterate]. destruct (Rlt_dec tol eps) as [_|]; [|lra]. rewrite iteration_newton. cbv beta iota.
  set (q := newton n d wt w b mindet p). set (e := change p q). destruct (Rlt_dec tol e) as [L|L].
  - destruct fuel as [|fuel].
    + exists 1%nat. split; [lia|]. split; [reflexivity|]. split; [intros; lia|]. now right.
    + destruct (IH e q (Some (stats_at n d wt w b mindet p)) L) as (k & Hk & E & Hj & Hs); [lia|]. exists (S k). split; [lia|]. split; [|split].
      * rewrite E. replace (S k - 1)%nat with (S (k - 1)) by lia. unfold q. rewrite !steps_shift. reflexivity.
      * intros j Hlt. destruct j as [|j]; [exact L|]. specialize (Hj j ltac:(lia)). unfold q in Hj. rewrite !steps_shift in Hj. exact Hj.
      * unfold q in Hs. rewrite !steps_shift in Hs. replace (S (k - 1)) with (S k - 1)%nat in Hs by lia. destruct Hs as [Hs|Hs]; [now left|right; lia].
  - exists 1%nat. split; [lia|]. split; [|split; [intros; lia|left; cbn [Nat.sub steps]; fold q; fold e; lra]].
    destruct fuel; [reflexivity|]. cbn [iterate]. destruct (Rlt_dec tol e); [contradiction|reflexivity].
Qed.

(* --- all components --- *)
Definition row_fit n d wt w b mindet tol maxiter p : fit := iterate maxiter n d wt w b mindet tol 1 (at_ p None).
Definition row_out n d wt w b mindet tol maxiter p0 (p : nat) : R :=
  let f := row_fit n d wt w b mindet tol maxiter p0 in
  match stats f with None => 0 | Some (h00, h11, dt, lk) =>
    match p with O => alphak f | 1%nat => h11 / dt * lk / (INR n - 2) | 2%nat => i0k f | _ => h00 / dt * lk / (INR n - 2) end end.
Lemma impl_rows data wt freqs freq0 out beam nc n tol maxiter mindet : tol < 1 -> (0 < maxiter)%nat -> n <> 2%nat ->
  exists out', fit_impl data wt freqs freq0 out beam nc n tol maxiter mindet = Ok out' /\
  forall c p, (c < nc)%nat -> (p < 4)%nat -> out' p c = row_out n (data c) wt (fun v => freqs v / freq0) (beam c) mindet tol maxiter (out 0%nat c, out 2%nat c) p.
Proof.
  intros Ht Hm Hn. unfold fit_impl. cbv zeta. set (w := fun v => freqs v / freq0).
  match goal with |- context [forM nc ?B out] => set (body := B) end.
  destruct (forM_inv (fun k o => (forall c p, (c < k)%nat -> (p < 4)%nat -> o p c = row_out n (data c) wt w (beam c) mindet tol maxiter (out 0%nat c, out 2%nat c) p) /\ (forall c p, (k <= c)%nat -> o p c = out p c)) nc body out) as (o & E & H & _).
  - split; [intros; lia|auto].
  - intros k o Hk (HL & HR). unfold body. cbv beta zeta. rewrite !HR by lia.
    change {| alphak := out 0%nat k; i0k := out 2%nat k; stats := None |} with (at_ (out 0%nat k, out 2%nat k) None). fold (row_fit n (data k) wt w (beam k) mindet tol maxiter (out 0%nat k, out 2%nat k)).
    destruct (stats (row_fit n (data k) wt w (beam k) mindet tol maxiter (out 0%nat k, out 2%nat k))) as [[[[h00 h11] dt] lk]|] eqn:Es.
    2:{ exfalso. unfold row_fit in Es. destruct (iterate_steps n (data k) wt w (beam k) mindet tol maxiter 1 (out 0%nat k, out 2%nat k) None Ht Hm) as (j & _ & E & _). rewrite E in Es. discriminate. }
    destruct (Nat.eqb_spec n 2); [contradiction|]. eexists. split; [reflexivity|]. split.
    + intros c p Hc Hp. destruct (Nat.eq_dec c k) as [->|Nc].
      * unfold row_out. cbv zeta. rewrite Es. destruct p as [|[|[|[|p]]]]; [| | | |lia].
        -- rewrite !upd2_neq by (left; lia). now rewrite upd2_eq.
        -- rewrite !upd2_neq by (left; lia). now rewrite upd2_eq.
        -- rewrite !upd2_neq by (left; lia). now rewrite upd2_eq.
        -- now rewrite upd2_eq.
      * rewrite !upd2_neq by (right; lia). apply HL; lia.
    + intros c p Hc. rewrite !upd2_neq by (right; lia). apply HR. lia.
  - exists o. split; auto.
Qed.
Lemma impl_unbound data wt freqs freq0 out beam nc n tol maxiter mindet : 1 <= tol \/ maxiter = O -> (0 < nc)%nat -> fit_impl data wt freqs freq0 out beam nc n tol maxiter mindet = Raise NameError.
Proof.
  intros H Hc. unfold fit_impl. cbv zeta. match goal with |- context [forM nc ?B out] => set (body := B) end. 
  assert (B : forall k o, body k o = Raise NameError).
  { intros k o. unfold body. assert (E : forall f, stats f = None -> stats (iterate maxiter n (data k) wt (fun v => freqs v / freq0) (beam k) mindet tol 1 f) = None).
    { intros f Hf. destruct maxiter as [|m]; [exact Hf|]. cbn [iterate]. destruct (Rlt_dec tol 1); [|exact Hf]. destruct H; [lra|discriminate]. }
    rewrite E by reflexivity. reflexivity. }
  apply (forM_raise nc body NameError O out); auto.
Qed.
Lemma impl_two data wt freqs freq0 out beam nc tol maxiter mindet : tol < 1 -> (0 < maxiter)%nat -> (0 < nc)%nat -> fit_impl data wt freqs freq0 out beam nc 2 tol maxiter mindet = Raise ZeroDivision.
Proof.
  intros Ht Hm Hc. unfold fit_impl. cbv zeta. match goal with |- context [forM nc ?B out] => set (body := B) end.
  assert (B : forall k o, body k o = Raise ZeroDivision).
  { intros k o. unfold body. change {| alphak := o 0%nat k; i0k := o 2%nat k; stats := None |} with (at_ (o 0%nat k, o 2%nat k) None).
    destruct (iterate_steps 2 (data k) wt (fun v => freqs v / freq0) (beam k) mindet tol maxiter 1 (o 0%nat k, o 2%nat k) None Ht Hm) as (j & _ & -> & _). cbn [at_ stats].
    destruct (stats_at _ _ _ _ _ _ _) as [[[h00 h11] dt] lk]. reflexivity. }
  apply (forM_raise nc body ZeroDivision O out); auto.
Qed.

(* --- the wrapper --- *)
Definition start (n : nat) (data : arr2 R) (freqs : arr R) (freq0 : R) (alphai I0i : option (arr R)) (beam : arr2 R) (c : nat) : R * R :=
  (match alphai with None => - (7 / 10) | Some a => a c end, match I0i with None => data c (ref_freq_idx n freqs freq0) / beam c (ref_freq_idx n freqs freq0) | Some i => i c end).
Definition beam_of (beam : option (arr2 R)) : arr2 R := match beam with None => fun _ _ => 1 | Some b => b end.
Definition mindet_of (t : float_type) : R := match t with Float32 => 1 / 10 ^ 5 | _ => 1 / 10 ^ 12 end.
Lemma fit_rows nc n t data wt freqs freq0 alphai I0i beam tol maxiter : t <> OtherType -> tol < 1 -> (0 < maxiter)%nat -> n <> 2%nat ->
  exists out, fit_spi_components nc n t data wt freqs freq0 alphai I0i beam tol maxiter = Ok out /\
  forall c p, (c < nc)%nat -> (p < 4)%nat -> out p c = row_out n (data c) wt (fun v => freqs v / freq0) (beam_of beam c) (mindet_of t) tol maxiter (start n data freqs freq0 alphai I0i (beam_of beam) c) p.
Proof.
  intros Hd Ht Hm Hn. unfold fit_spi_components. cbv zeta. fold (beam_of beam).
  destruct t; [| |congruence]; cbn [bind mindet_of].
  - destruct (impl_rows data wt freqs freq0 (fun p comp => match p with O => match alphai with None => - (7 / 10) | Some a => a comp end | 2%nat => match I0i with None => data comp (ref_freq_idx n freqs freq0) / beam_of beam comp (ref_freq_idx n freqs freq0) | Some i => i comp end | _ => 0 end) (beam_of beam) nc n tol maxiter (1 / 10 ^ 5) Ht Hm Hn) as (o & E & H). exists o. split; [exact E|]. exact H.
  - destruct (impl_rows data wt freqs freq0 (fun p comp => match p with O => match alphai with None => - (7 / 10) | Some a => a comp end | 2%nat => match I0i with None => data comp (ref_freq_idx n freqs freq0) / beam_of beam comp (ref_freq_idx n freqs freq0) | Some i => i comp end | _ => 0 end) (beam_of beam) nc n tol maxiter (1 / 10 ^ 12) Ht Hm Hn) as (o & E & H). exists o. split; [exact E|]. exact H.
Qed.
Lemma fit_raises nc n t data wt freqs freq0 alphai I0i beam tol maxiter : (0 < nc)%nat ->
  (t = OtherType -> fit_spi_components nc n t data wt freqs freq0 alphai I0i beam tol maxiter = Raise ValueError) /\
  (t <> OtherType -> 1 <= tol \/ maxiter = O -> fit_spi_components nc n t data wt freqs freq0 alphai I0i beam tol maxiter = Raise NameError) /\
  (t <> OtherType -> tol < 1 -> (0 < maxiter)%nat -> n = 2%nat -> fit_spi_components nc n t data wt freqs freq0 alphai I0i beam tol maxiter = Raise ZeroDivision).
Proof.
  intros Hc. unfold fit_spi_components. cbv zeta. split; [intros ->; reflexivity|]. split.
  - intros Ht H. destruct t; [| |congruence]; cbn [bind]; now apply impl_unbound.
  - intros Ht H1 H2 ->. destruct t; [| |congruence]; cbn [bind]; now apply impl_two.
Qed.
Lemma fit_iterates nc n t data wt freqs freq0 alphai I0i beam tol maxiter c : t <> OtherType -> tol < 1 -> (0 < maxiter)%nat -> n <> 2%nat -> (c < nc)%nat ->
  let w v := freqs v / freq0 in let b := beam_of beam c in let d := data c in
  exists out k (p : nat -> R * R), fit_spi_components nc n t data wt freqs freq0 alphai I0i beam tol maxiter = Ok out /\ (1 <= k <= maxiter)%nat /\
    p O = start n data freqs freq0 alphai I0i (beam_of beam) c /\
    (forall j, (j < k)%nat -> p (S j) = newton n d wt w b (mindet_of t) (p j)) /\
    (forall j, (j < k - 1)%nat -> tol < change (p j) (p (S j))) /\ (change (p (k - 1)%nat) (p k) <= tol \/ k = maxiter) /\
    out 0%nat c = fst (p k) /\ out 2%nat c = snd (p k) /\
    let '(a, i) := p (k - 1)%nat in let D := floored (mindet_of t) (det n wt w b a i) in
    out 1%nat c = h_ii n wt w b a / D * (chi2 n d wt w b a i / (INR n - 2)) /\ out 3%nat c = h_aa n wt w b a i / D * (chi2 n d wt w b a i / (INR n - 2)).
Proof.
  intros Hd Ht Hm Hn Hc w b d. destruct (fit_rows nc n t data wt freqs freq0 alphai I0i beam tol maxiter Hd Ht Hm Hn) as (out & E & H). exists out.
  destruct (iterate_steps n d wt w b (mindet_of t) tol maxiter 1 (start n data freqs freq0 alphai I0i (beam_of beam) c) None Ht Hm) as (k & Hk & Ei & Hj & Hs).
  exists k, (fun j => steps n d wt w b (mindet_of t) j (start n data freqs freq0 alphai I0i (beam_of beam) c)).
  split; [exact E|]. split; [exact Hk|]. split; [reflexivity|]. split; [intros; reflexivity|]. split; [exact Hj|]. split; [exact Hs|].
  fold w in H. rewrite !H by lia. unfold row_out, row_fit. fold b d. rewrite Ei. cbn [at_ stats alphak i0k]. unfold stats_at.
  destruct (steps n d wt w b (mindet_of t) (k - 1) _) as [a i]. cbv beta iota zeta. repeat split; unfold Rdiv; ring.
Qed.

(* --- steps --- *)
Lemma normal_equations n d wt w b mindet p : 0 < mindet -> mindet <= det n wt w b (fst p) (snd p) -> solves_normal_equations n d wt w b p (newton n d wt w b mindet p).
Proof.
  destruct p as [a i]. cbn [fst snd]. intros Hm Hd. unfold solves_normal_equations, newton, floored. cbn [fst snd]. rewrite Rmax_left by lra. unfold det in *. split; field; lra.
Qed.
Lemma stationary n d wt w b mindet p : 0 < mindet -> mindet <= det n wt w b (fst p) (snd p) ->
  (newton n d wt w b mindet p = p <-> g_a n d wt w b (fst p) (snd p) = 0 /\ g_i n d wt w b (fst p) (snd p) = 0).
Proof.
  intros Hm Hd. pose proof (normal_equations n d wt w b mindet p Hm Hd) as E. destruct p as [a i]. cbn [fst snd] in *. split.
  - intros Hp. rewrite Hp in E. cbn [solves_normal_equations fst snd] in E. split; lra.
  - intros (Ga & Gi). unfold newton. rewrite Ga, Gi. f_equal; unfold Rdiv; ring.
Qed.
Lemma exact_fixed n d wt w b mindet a i : (forall v, (v < n)%nat -> d v = spectrum w b a i v) -> newton n d wt w b mindet (a, i) = (a, i) /\ chi2 n d wt w b a i = 0.
Proof.
  intros H. assert (Z : forall v, (v < n)%nat -> misfit d w b a i v = 0) by (intros v Hv; unfold misfit; rewrite H by auto; lra).
  assert (G : forall x, inner n wt x (misfit d w b a i) = 0) by (intros x; apply total_0; intros v Hv; rewrite Z by auto; ring).
  split; [|apply G]. unfold newton, g_a, g_i. rewrite !G. f_equal; unfold Rdiv; ring.
Qed.
Lemma steps_fixed n d wt w b mindet p : newton n d wt w b mindet p = p -> forall k, steps n d wt w b mindet k p = p.
Proof. intros H. induction k as [|k IH]; auto. cbn [steps]. now rewrite IH. Qed.
Lemma fit_exact nc n t data wt freqs freq0 alphai I0i beam tol maxiter c : t <> OtherType -> tol < 1 -> (0 < maxiter)%nat -> n <> 2%nat -> (c < nc)%nat ->
  let '(a, i) := start n data freqs freq0 alphai I0i (beam_of beam) c in
  (forall v, (v < n)%nat -> data c v = spectrum (fun v => freqs v / freq0) (beam_of beam c) a i v) ->
  exists out, fit_spi_components nc n t data wt freqs freq0 alphai I0i beam tol maxiter = Ok out /\ out 0%nat c = a /\ out 1%nat c = 0 /\ out 2%nat c = i /\ out 3%nat c = 0.
Proof.
  intros Hd Ht Hm Hn Hc. destruct (start n data freqs freq0 alphai I0i (beam_of beam) c) as [a i] eqn:Es. intros H.
  destruct (fit_rows nc n t data wt freqs freq0 alphai I0i beam tol maxiter Hd Ht Hm Hn) as (out & E & R). exists out. split; auto.
  rewrite !R by lia. rewrite Es. set (w := fun v => freqs v / freq0) in *.
  destruct (exact_fixed n (data c) wt w (beam_of beam c) (mindet_of t) a i H) as (F & C).
  destruct (iterate_steps n (data c) wt w (beam_of beam c) (mindet_of t) tol maxiter 1 (a, i) None Ht Hm) as (k & _ & Ei & _).
  unfold row_out, row_fit. rewrite Ei. rewrite !(steps_fixed _ _ _ _ _ _ _ F). cbn [at_ stats alphak i0k stats_at fst snd]. rewrite C. repeat split; unfold Rdiv; ring.
Qed.
Lemma variances_nonneg nc n t data wt freqs freq0 alphai I0i beam tol maxiter c : t <> OtherType -> tol < 1 -> (0 < maxiter)%nat -> (2 < n)%nat -> (c < nc)%nat -> (forall v, (v < n)%nat -> 0 <= wt v) ->
  exists out, fit_spi_components nc n t data wt freqs freq0 alphai I0i beam tol maxiter = Ok out /\ 0 <= out 1%nat c /\ 0 <= out 3%nat c.
Proof.
  intros Hd Ht Hm Hn Hc Hw. destruct (fit_iterates nc n t data wt freqs freq0 alphai I0i beam tol maxiter c Hd Ht Hm ltac:(lia) Hc) as (out & k & p & E & _ & _ & _ & _ & _ & _ & _ & V).
  exists out. split; auto. destruct (p (k - 1)%nat) as [a i]. destruct V as (-> & ->).
  assert (I : forall x, 0 <= inner n wt x x). { intros x. apply total_nonneg. intros v Hv. specialize (Hw v Hv). replace (x v * wt v * x v) with (wt v * (x v * x v)) by ring. apply Rmult_le_pos; [auto|apply Rle_0_sqr]. }
  assert (M : 0 < mindet_of t) by (destruct t; cbn [mindet_of]; lra).
  set (D := floored _ _). assert (HD : 0 < D) by (unfold D, floored; eapply Rlt_le_trans; [exact M|apply Rmax_r]).
  assert (N : 0 < INR n - 2). { apply lt_INR in Hn. cbn [INR] in Hn. lra. }
  split; (apply Rmult_le_pos; [apply Rmult_le_pos; [apply I|left; now apply Rinv_0_lt_compat]|apply Rmult_le_pos; [apply I|left; now apply Rinv_0_lt_compat]]).
Qed.
(* the nearest channel *)
Lemma ref_idx_spec n freqs freq0 : (0 < n)%nat -> let k := ref_freq_idx n freqs freq0 in (k < n)%nat /\
  (forall v, (v < n)%nat -> Rabs (freqs k - freq0) <= Rabs (freqs v - freq0)) /\ (forall v, (v < k)%nat -> Rabs (freqs k - freq0) < Rabs (freqs v - freq0)).
Proof.
  intros Hn. cbv zeta. unfold ref_freq_idx. match goal with |- context [for_ n ?B O] => set (body := B) end.
  assert (G : forall m, (0 < m)%nat -> let k := for_ m body O in (k < m)%nat /\ (forall v, (v < m)%nat -> Rabs (freqs k - freq0) <= Rabs (freqs v - freq0)) /\ (forall v, (v < k)%nat -> Rabs (freqs k - freq0) < Rabs (freqs v - freq0))).
  { induction m as [|m IH]; intros Hm; [lia|]. cbv zeta. rewrite for_S. destruct (Nat.eq_dec m 0) as [->|Nm].
    - cbn [for_]. unfold body. destruct (Rlt_dec _ _); [lra|]. split; [lia|]. split; [intros v Hv; replace v with O by lia; lra|intros; lia].
    - destruct IH as (A & B & C); [lia|]. set (k := for_ m body O) in *. unfold body. destruct (Rlt_dec (Rabs (freqs m - freq0)) (Rabs (freqs k - freq0))) as [L|L].
      + split; [lia|]. split; [intros v Hv; destruct (Nat.eq_dec v m) as [->|]; [lra|specialize (B v ltac:(lia)); lra]|intros v Hv; specialize (B v Hv); lra].
      + split; [lia|]. split; [|exact C]. intros v Hv. destruct (Nat.eq_dec v m) as [->|]; [lra|apply B; lia]. }
  now apply G.
Qed.

(* --- derivatives --- *)
Lemma spectrum_by_index w b a i v : derivable_pt_lim (fun a => spectrum w b a i v) a (by_index w b a i v).
Proof.
  unfold spectrum, by_index, spectrum, Rpower.
  replace (i * (b v * exp (a * ln (w v))) * ln (w v)) with (i * b v * (exp (a * ln (w v)) * (1 * ln (w v) + a * 0))) by ring.
  apply (derivable_pt_lim_ext (fun x => (i * b v) * exp (x * ln (w v)))); [intros; ring|].
  apply derivable_pt_lim_scal. apply (derivable_pt_lim_comp (fun x => x * ln (w v)) exp).
  - apply (derivable_pt_lim_mult (fun x => x) (fun _ => ln (w v))); [apply derivable_pt_lim_id|apply derivable_pt_lim_const].
  - apply derivable_pt_lim_exp.
Qed.

Lemma spectrum_by_intensity w b a i v : derivable_pt_lim (fun i => spectrum w b a i v) i (by_intensity w b a v).
Proof.
  unfold spectrum, by_intensity. set (k := b v * Rpower (w v) a). cut (derivable_pt_lim (fun x => x * k) i (1 * k + i * 0)); [now replace (1 * k + i * 0) with k by ring|].
  apply (derivable_pt_lim_mult (fun x => x) (fun _ => k)); [apply derivable_pt_lim_id|apply derivable_pt_lim_const].
Qed.
Lemma total_derivable n (F : nat -> R -> R) (F' : nat -> R) x : (forall v, derivable_pt_lim (F v) x (F' v)) -> derivable_pt_lim (fun x => total n (fun v => F v x)) x (total n F').
Proof.
  intros H. induction n as [|n IH]; cbn [total]; [apply derivable_pt_lim_const|]. apply (derivable_pt_lim_plus (fun x => total n (fun v => F v x)) (F n)); auto.
Qed.
Lemma square_derivable (m : R -> R) m' d k x : derivable_pt_lim m x m' -> derivable_pt_lim (fun x => (d - m x) * k * (d - m x)) x (- 2 * (m' * k * (d - m x))).
Proof.
  intros H. assert (D : derivable_pt_lim (fun x => d - m x) x (0 - m')) by (apply (derivable_pt_lim_minus (fun _ => d) m); [apply derivable_pt_lim_const|exact H]).
  replace (- 2 * (m' * k * (d - m x))) with (((0 - m') * k + (d - m x) * 0) * (d - m x) + (d - m x) * k * (0 - m')) by ring.
  apply (derivable_pt_lim_mult (fun x => (d - m x) * k) (fun x => d - m x)); auto.
  apply (derivable_pt_lim_mult (fun x => d - m x) (fun _ => k)); auto. apply derivable_pt_lim_const.
Qed.
Lemma total_scal n k f : total n (fun v => k * f v) = k * total n f.
Proof. induction n as [|n IH]; cbn; [ring|]. rewrite IH. ring. Qed.
Lemma chi2_by_index n d wt w b a i : derivable_pt_lim (fun a => chi2 n d wt w b a i) a (- 2 * g_a n d wt w b a i).
Proof.
  unfold chi2, g_a, inner. rewrite <- total_scal. apply (total_derivable n (fun v x => misfit d w b x i v * wt v * misfit d w b x i v)). intros v.
  apply (square_derivable (fun x => spectrum w b x i v)). apply spectrum_by_index.
Qed.
Lemma chi2_by_intensity n d wt w b a i : derivable_pt_lim (fun i => chi2 n d wt w b a i) i (- 2 * g_i n d wt w b a i).
Proof.
  unfold chi2, g_i, inner. rewrite <- total_scal. apply (total_derivable n (fun v x => misfit d w b a x v * wt v * misfit d w b a x v)). intros v.
  apply (square_derivable (fun x => spectrum w b a x v)). apply spectrum_by_intensity.
Qed.
(* a zero step is a stationary point of the misfit *)
Lemma stationary_point n d wt w b mindet a i : 0 < mindet -> mindet <= det n wt w b a i ->
  (newton n d wt w b mindet (a, i) = (a, i) <-> derivable_pt_lim (fun a => chi2 n d wt w b a i) a 0 /\ derivable_pt_lim (fun i => chi2 n d wt w b a i) i 0).
Proof.
  intros Hm Hd. rewrite (stationary n d wt w b mindet (a, i) Hm Hd). cbn [fst snd]. split.
  - intros (A & B). split; [pose proof (chi2_by_index n d wt w b a i) as D; rewrite A in D|pose proof (chi2_by_intensity n d wt w b a i) as D; rewrite B in D]; now replace (-2 * 0) with 0 in D by ring.
  - intros (A & B). pose proof (uniqueness_limite _ _ _ _ A (chi2_by_index n d wt w b a i)). pose proof (uniqueness_limite _ _ _ _ B (chi2_by_intensity n d wt w b a i)). lra.
Qed.

(* --- chunks --- *)
Lemma row_out_eq n d d' wt w b b' m tol mi p0 p0' p : d = d' -> b = b' -> p0 = p0' -> row_out n d wt w b m tol mi p0 p = row_out n d' wt w b' m tol mi p0' p.
Proof. now intros -> -> ->. Qed.
Lemma dask_rows comps n rest t data wt freqs freq0 alphai I0i beam tol maxiter p c : t <> OtherType -> tol < 1 -> (0 < maxiter)%nat -> n <> 2%nat -> (c < list_sum comps)%nat -> (p < 4)%nat ->
  exists out, fit_spi_components (list_sum comps) n t data wt freqs freq0 alphai I0i beam tol maxiter = Ok out /\
  dask_fit comps (n :: rest) t data wt freqs freq0 alphai I0i beam tol maxiter p c = Ok (out p c).
Proof.
  intros Hd Ht Hm Hn Hc Hp. destruct (fit_rows (list_sum comps) n t data wt freqs freq0 alphai I0i beam tol maxiter Hd Ht Hm Hn) as (out & E & R). exists out. split; auto.
  unfold dask_fit. destruct (locate 0 comps c) as [c0 nc] eqn:El. apply locate_spec in El; [|lia]. cbv zeta. cbn [hd].
  destruct (fit_rows nc n t (fun k => data (c0 + k)%nat) wt freqs freq0 (option_map (fun x k => x (c0 + k)%nat) alphai) (option_map (fun x k => x (c0 + k)%nat) I0i) (option_map (fun x k => x (c0 + k)%nat) beam) tol maxiter Hd Ht Hm Hn) as (blk & Eb & Rb).
  unfold arr in *. rewrite Eb. cbn [bind].
  rewrite Rb, R by lia. f_equal. apply row_out_eq.
  - replace (c0 + (c - c0))%nat with c by lia. reflexivity.
  - destruct beam as [b|]; cbn [beam_of option_map]; [|reflexivity]. replace (c0 + (c - c0))%nat with c by lia. reflexivity.
  - unfold start. destruct alphai, I0i, beam; cbn [option_map beam_of]; replace (c0 + (c - c0))%nat with c by lia; reflexivity.
Qed.
(* --- in the terms of the specification --- *)
Lemma nearest_idx n freqs freq0 : (0 < n)%nat -> nearest n freqs freq0 (ref_freq_idx n freqs freq0).
Proof. intros H. destruct (ref_idx_spec n freqs freq0 H) as (A & B & C). split; auto. Qed.
Lemma nearest_unique n freqs freq0 j k : nearest n freqs freq0 j -> nearest n freqs freq0 k -> j = k.
Proof.
  intros (Hj & Aj) (Hk & Ak). destruct (Nat.lt_trichotomy j k) as [L|[E|L]]; auto.
  - destruct (Ak j Hj) as (_ & S). destruct (Aj k Hk) as (T & _). specialize (S L). lra.
  - destruct (Aj k Hk) as (_ & S). destruct (Ak j Hj) as (T & _). specialize (S L). lra.
Qed.
Lemma beam_same beam : beam_of beam = beam_or_1 beam.
Proof. unfold beam_of, beam_or_1. destruct beam; reflexivity. Qed.
Lemma start_spec n data freqs freq0 alphai I0i beam c p : (0 < n)%nat -> starts_at n data freqs freq0 alphai I0i beam c p <-> p = start n data freqs freq0 alphai I0i (beam_of beam) c.
Proof.
  intros Hn. unfold starts_at, start. rewrite beam_same. destruct p as [a i]. cbn [fst snd]. split.
  - intros (-> & H). destruct I0i as [x|]; [now rewrite H|]. destruct H as (k & Hk & ->). rewrite (nearest_unique n freqs freq0 k _ Hk (nearest_idx n freqs freq0 Hn)). reflexivity.
  - intros E. injection E as -> ->. split; [reflexivity|]. destruct I0i as [x|]; [reflexivity|]. exists (ref_freq_idx n freqs freq0). split; [now apply nearest_idx|reflexivity].
Qed.
