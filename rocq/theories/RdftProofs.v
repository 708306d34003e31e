From Coq Require Import Reals Lra Lia String.
From Verif Require Import Prelude PreludeFacts CRing CplxR LoopFacts RimeModel RimeSpec DftModel DftSpec DftProofs RoundModel RoundSpec RavgSpec RavgProofs RdftModel RdftSpec.
Open Scope R_scope.

(* ---------- exact operations: the models that exist ---------- *)
Lemma pow2 x : x ^ 2 = x * x. Proof. ring. Qed.
Lemma exact_phase nsrc nrow nchan lm uvw freq conv :
  phase_delay_in exact_ops nsrc nrow nchan lm uvw freq conv = phase_delay nsrc nrow nchan lm uvw freq conv.
Proof.
  unfold phase_delay_in, phase_delay, phase_constant_in, phase_constant, minus_two_pi_over_c. cbn [exact_ops two_pi_c].
  assert (E : forall constant, for_ nsrc (fun source k =>
          let l := lm source 0%nat in let m := lm source 1%nat in
          let n := n_minus_1 exact_ops l m in
          for_ nrow (fun row k =>
            let u := uvw row 0%nat in let v := uvw row 1%nat in let w := uvw row 2%nat in
            for_ nchan (fun chan k =>
              let p := phase_in exact_ops constant l m n u v w (freq chan) in
              let k1 := upd3 k source row chan (cos p, snd (k source row chan)) in
              upd3 k1 source row chan (fst (k1 source row chan), sin p)) k) k)
        (fun _ _ _ => (0, 0)) = for_ nsrc (fun source k =>
        let l := lm source 0%nat in let m := lm source 1%nat in
        let n := sqrt (1 - l ^ 2 - m ^ 2) - 1 in
        for_ nrow (fun row k =>
          let u := uvw row 0%nat in let v := uvw row 1%nat in let w := uvw row 2%nat in
          let real_phase := constant * (l * u + m * v + n * w) in
          for_ nchan (fun chan k =>
            let p := real_phase * freq chan in
            let k1 := upd3 k source row chan ((cos p, snd (k source row chan)) : RC) in
            upd3 k1 source row chan ((fst (k1 source row chan), sin p) : RC)) k) k)
      (fun _ _ _ => (c0 : RC))).
  { intros constant. apply for_ext. intros s k Hs. cbv zeta. unfold n_minus_1, radicand, phase_in. cbn [exact_ops rsub rmul rsqrt radd]. rewrite !pow2. reflexivity. }
  destruct (String.eqb conv "fourier"); cbn [bind]; [f_equal; apply E|]. destruct (String.eqb conv "casa"); cbn [bind]; [f_equal; apply E|reflexivity].
Qed.
Lemma exact_im_to_vis nrows nsrc nchan ncorr image uvw lm freq conv :
  im_to_vis_in exact_ops nrows nsrc nchan ncorr image uvw lm freq conv = im_to_vis nrows nsrc nchan ncorr image uvw lm freq conv.
Proof.
  unfold im_to_vis_in, im_to_vis, im_constant, im_to_vis_body, minus_two_pi_over_c. cbn [exact_ops two_pi_c].
  destruct (String.eqb conv "fourier"); cbn [bind]; [|destruct (String.eqb conv "casa"); cbn [bind]; [|reflexivity]]; f_equal;
    apply for_ext; intros r vis Hr; cbv zeta; apply for_ext; intros s vis1 Hs; cbv zeta;
    unfold n_minus_1, radicand, phase_in; cbn [exact_ops rsub rmul rsqrt radd]; rewrite !pow2; reflexivity.
Qed.
Lemma exact_vis_to_im nrows nsrc nchan ncorr vis uvw lm freq flags conv :
  vis_to_im_in exact_ops nrows nsrc nchan ncorr vis uvw lm freq flags conv = vis_to_im nrows nsrc nchan ncorr true vis uvw lm freq flags conv.
Proof.
  unfold vis_to_im_in, vis_to_im, vis_constant, vis_to_im_body, minus_two_pi_over_c. cbn [exact_ops two_pi_c negb].
  destruct (String.eqb conv "fourier"); cbn [bind]; [|destruct (String.eqb conv "casa"); cbn [bind]; [|reflexivity]]; f_equal;
    apply for_ext; intros s img Hs; cbv zeta; unfold n_minus_1, radicand, phase_in; cbn [exact_ops rsub rmul rsqrt radd]; rewrite !pow2; reflexivity.
Qed.

(* ---------- values of the entries, in any arithmetic ---------- *)
Section Values.
  Context (A : rops).
  Definition ph constant (lm uvw : arr2 R) (freq : arr R) s r f : R :=
    phase_in A constant (lm s 0%nat) (lm s 1%nat) (n_minus_1 A (lm s 0%nat) (lm s 1%nat)) (uvw r 0%nat) (uvw r 1%nat) (uvw r 2%nat) (freq f).
  Lemma phase_value nsrc nrow nchan lm uvw freq conv k : phase_delay_in A nsrc nrow nchan lm uvw freq conv = Ok k ->
    exists e, im_sign conv e /\ forall s r f, (s < nsrc)%nat -> (r < nrow)%nat -> (f < nchan)%nat ->
      k s r f = (rcos A (ph (e * two_pi_c A) lm uvw freq s r f), rsin A (ph (e * two_pi_c A) lm uvw freq s r f)).
  Proof.
    unfold phase_delay_in, phase_constant_in.
    assert (E : forall constant s r f, (s < nsrc)%nat -> (r < nrow)%nat -> (f < nchan)%nat ->
      for_ nsrc (fun source k =>
          let l := lm source 0%nat in let m := lm source 1%nat in
          let n := n_minus_1 A l m in
          for_ nrow (fun row k =>
            let u := uvw row 0%nat in let v := uvw row 1%nat in let w := uvw row 2%nat in
            for_ nchan (fun chan k =>
              let p := phase_in A constant l m n u v w (freq chan) in
              let k1 := upd3 k source row chan (rcos A p, snd (k source row chan)) in
              upd3 k1 source row chan (fst (k1 source row chan), rsin A p)) k) k)
        (fun _ _ _ => (0, 0)) s r f = (rcos A (ph constant lm uvw freq s r f), rsin A (ph constant lm uvw freq s r f))).
    { intros constant s r f Hs Hr Hf. set (val := (rcos A _, rsin A _)).
      rewrite (for_at (fun k : arr3 (R * R) => k s r f) (fun _ => val) s); auto.
      - intros s' k0 _ Ne. cbv beta zeta. apply (for_frame (fun k : arr3 (R * R) => k s r f)). intros r' k1 _.
        apply (for_frame (fun k : arr3 (R * R) => k s r f)). intros f' k2 _. rewrite !upd3_neq by auto. reflexivity.
      - intros k0. cbv beta zeta. apply (for_at (fun k : arr3 (R * R) => k s r f) (fun _ => val) r); auto.
        + intros r' k1 _ Ne. apply (for_frame (fun k : arr3 (R * R) => k s r f)). intros f' k2 _. rewrite !upd3_neq by auto. reflexivity.
        + intros k1. apply (for_at (fun k : arr3 (R * R) => k s r f) (fun _ => val) f); auto.
          * intros f' k2 _ Ne. rewrite !upd3_neq by auto. reflexivity.
          * intros k2. rewrite !upd3_eq. reflexivity. }
    destruct (String.eqb conv "fourier") eqn:C1; cbn [bind].
    - intros [= <-]. apply String.eqb_eq in C1. subst. exists (-1). split; [constructor|]. intros. rewrite E by assumption.
      replace (-1 * two_pi_c A) with (- two_pi_c A) by ring. reflexivity.
    - destruct (String.eqb conv "casa") eqn:C2; cbn [bind]; [|discriminate]. intros [= <-]. apply String.eqb_eq in C2. subst. exists 1. split; [constructor|].
      intros. rewrite E by assumption. replace (1 * two_pi_c A) with (- - two_pi_c A) by ring. reflexivity.
  Qed.

  (* left to right accumulation over 0 .. n-1 *)
  Fixpoint acc {X} (n : nat) (step : nat -> X -> X) (x : X) : X := match n with O => x | S k => step k (acc k step x) end.
  Lemma for_acc {T X} (obs : T -> X) (step : nat -> X -> X) n body s : (forall i s, (i < n)%nat -> obs (body i s) = step i (obs s)) ->
    obs (for_ n body s) = acc n step (obs s).
  Proof. induction n as [|n IH]; intros H; [reflexivity|]. rewrite for_S, H by lia. cbn [acc]. f_equal. apply IH. intros. apply H. lia. Qed.
  Lemma im_to_vis_in_value nrows nsrc nchan ncorr image uvw lm freq conv V : im_to_vis_in A nrows nsrc nchan ncorr image uvw lm freq conv = Ok V ->
    exists e, im_sign conv e /\ forall r f c, (r < nrows)%nat -> (f < nchan)%nat -> (c < ncorr)%nat ->
      V r f c = acc nsrc (fun s x => if truthy (image s f c) then
        plus_in A x (times_in A (rcos A (ph (e * two_pi_c A) lm uvw freq s r f), rsin A (ph (e * two_pi_c A) lm uvw freq s r f)) (image s f c)) else x) (0, 0).
  Proof.
    unfold im_to_vis_in.
    intros H.
    assert (G : exists e, im_sign conv e /\ Ok V = Ok (for_ nrows (fun r vis =>
      let u := uvw r 0%nat in let v := uvw r 1%nat in let w := uvw r 2%nat in
      for_ nsrc (fun s vis =>
        let l := lm s 0%nat in let m := lm s 1%nat in
        let n := n_minus_1 A l m in
        for_ nchan (fun nu vis =>
          let p := phase_in A (e * two_pi_c A) l m n u v w (freq nu) in
          for_ ncorr (fun c vis =>
            if truthy (image s nu c)
            then upd3 vis r nu c (plus_in A (vis r nu c) (times_in A (rcos A p, rsin A p) (image s nu c)))
            else vis) vis) vis) vis)
      (fun _ _ _ => (0, 0)))).
    { destruct (String.eqb conv "fourier") eqn:C1; cbn [bind] in H.
      - apply String.eqb_eq in C1. subst. exists (-1). split; [constructor|]. rewrite <- H. replace (-1 * two_pi_c A) with (- two_pi_c A) by ring. reflexivity.
      - destruct (String.eqb conv "casa") eqn:C2; cbn [bind] in H; [|discriminate]. apply String.eqb_eq in C2. subst. exists 1. split; [constructor|].
        rewrite <- H. replace (1 * two_pi_c A) with (two_pi_c A) by ring. reflexivity. }
    clear H. destruct G as (e & S & G). exists e. split; [exact S|]. intros r f c Hr Hf Hc. injection G as ->.
    match goal with |- _ = acc _ ?st _ => set (step := st) end.
    rewrite (for_at (fun vis : arr3 (R * R) => vis r f c) (fun x => acc nsrc step x) r); auto.
    - intros r' vis _ Ne. cbv beta zeta. apply (for_frame (fun vis : arr3 (R * R) => vis r f c)). intros s' vis1 _.
      apply (for_frame (fun vis : arr3 (R * R) => vis r f c)). intros f' vis2 _.
      apply (for_frame (fun vis : arr3 (R * R) => vis r f c)). intros c' vis3 _. destruct (truthy _); auto. apply upd3_neq. auto.
    - intros vis. cbv beta zeta. apply (for_acc (fun vis : arr3 (R * R) => vis r f c)). intros s vis1 Hs.
      apply (for_at (fun vis : arr3 (R * R) => vis r f c) (step s) f); auto.
      + intros f' vis2 _ Ne. apply (for_frame (fun vis : arr3 (R * R) => vis r f c)). intros c' vis3 _. destruct (truthy _); auto. apply upd3_neq. auto.
      + intros vis2. apply (for_at (fun vis : arr3 (R * R) => vis r f c) (step s) c); auto.
        * intros c' vis3 _ Ne. destruct (truthy _); auto. apply upd3_neq. auto.
        * intros vis3. unfold step. destruct (truthy (image s f c)); [|reflexivity]. rewrite upd3_eq. reflexivity.
  Qed.
  Lemma vis_to_im_in_value nrows nsrc nchan ncorr vis uvw lm freq flags conv img : vis_to_im_in A nrows nsrc nchan ncorr vis uvw lm freq flags conv = Ok img ->
    exists e, im_sign conv e /\ forall s f c, (s < nsrc)%nat -> (f < nchan)%nat -> (c < ncorr)%nat ->
      img s f c = acc nrows (fun r x => if any_flag ncorr (flags r f) then x else
        radd A x (rsub A (rmul A (rcos A (ph (- e * two_pi_c A) lm uvw freq s r f)) (fst (vis r f c)))
                         (rmul A (rsin A (ph (- e * two_pi_c A) lm uvw freq s r f)) (snd (vis r f c))))) 0.
  Proof.
    unfold vis_to_im_in. intros H.
    assert (G : exists e, im_sign conv e /\ Ok img = Ok (for_ nsrc (fun s img =>
      let l := lm s 0%nat in let m := lm s 1%nat in
      let n := n_minus_1 A l m in
      for_ nrows (fun r img =>
        let u := uvw r 0%nat in let v := uvw r 1%nat in let w := uvw r 2%nat in
        for_ nchan (fun nu img =>
          let p := phase_in A (- e * two_pi_c A) l m n u v w (freq nu) in
          if any_flag ncorr (flags r nu) then img
          else for_ ncorr (fun c img =>
            upd3 img s nu c (radd A (img s nu c) (rsub A (rmul A (rcos A p) (fst (vis r nu c))) (rmul A (rsin A p) (snd (vis r nu c)))))) img) img) img)
      (fun _ _ _ => 0))).
    { destruct (String.eqb conv "fourier") eqn:C1; cbn [bind] in H.
      - apply String.eqb_eq in C1. subst. exists (-1). split; [constructor|]. rewrite <- H. replace (- -1 * two_pi_c A) with (two_pi_c A) by ring. reflexivity.
      - destruct (String.eqb conv "casa") eqn:C2; cbn [bind] in H; [|discriminate]. apply String.eqb_eq in C2. subst. exists 1. split; [constructor|].
        rewrite <- H. replace (- (1) * two_pi_c A) with (- two_pi_c A) by ring. reflexivity. }
    clear H. destruct G as (e & S & G). exists e. split; [exact S|]. intros s f c Hs Hf Hc. injection G as ->.
    match goal with |- _ = acc _ ?st _ => set (step := st) end.
    rewrite (for_at (fun img : arr3 R => img s f c) (fun x => acc nrows step x) s); auto.
    - intros s' img _ Ne. cbv beta zeta. apply (for_frame (fun img : arr3 R => img s f c)). intros r' img1 _.
      apply (for_frame (fun img : arr3 R => img s f c)). intros f' img2 _. destruct (any_flag _ _); auto.
      apply (for_frame (fun img : arr3 R => img s f c)). intros c' img3 _. apply upd3_neq. auto.
    - intros img. cbv beta zeta. apply (for_acc (fun img : arr3 R => img s f c)). intros r img1 Hr.
      apply (for_at (fun img : arr3 R => img s f c) (step r) f); auto.
      + intros f' img2 _ Ne. destruct (any_flag _ _); auto. apply (for_frame (fun img : arr3 R => img s f c)). intros c' img3 _. apply upd3_neq. auto.
      + intros img2. unfold step. destruct (any_flag ncorr (flags r f)) eqn:F; [reflexivity|].
        match goal with |- _ = ?rhs => apply (for_at (fun img : arr3 R => img s f c) (fun x => radd A x _) c) end; auto.
        * intros c' img3 _ Ne. apply upd3_neq. auto.
        * intros img3. rewrite upd3_eq. reflexivity.
  Qed.
End Values.
