From Coq Require Import Reals String Ascii DecimalString Lra Lia.
From Verif Require Import Prelude AxesModel AxesSpec.
Close Scope R_scope.
Open Scope nat_scope.

Lemma bind_ok' {A B} (x : res A) (f : A -> res B) b : bind x f = Ok b <-> exists a, x = Ok a /\ f a = Ok b.
Proof. destruct x; cbn; [split; [intros H; now exists a|intros (a' & E & H); now injection E as ->]|split; [discriminate|intros (a' & E & _); discriminate]]. Qed.
Lemma compr_ok {A B} (f : A -> res B) l bs : comprehend f l = Ok bs <-> Forall2 (fun a b => f a = Ok b) l bs.
Proof.
  revert bs. induction l as [|a l IH]; intros bs; cbn [comprehend].
  - split; [intros E; injection E as <-; constructor|intros H; now inversion H].
  - rewrite bind_ok'. split.
    + intros (b & Eb & E). apply bind_ok' in E as (cs & Ec & E). injection E as <-. constructor; [exact Eb|now apply IH].
    + intros H. inversion H as [|? b ? cs H1 H2]; subst. exists b. split; [exact H1|]. apply bind_ok'. exists cs. split; [now apply IH|reflexivity].
Qed.
Lemma compr_nth {A B} (f : A -> res B) l bs i a : comprehend f l = Ok bs -> nth_error l i = Some a -> exists b, nth_error bs i = Some b /\ f a = Ok b.
Proof. intros H. apply compr_ok in H. revert i. induction H as [|x y l bs E _ IH]; intros i; destruct i; cbn; try discriminate; [intros Ea; injection Ea as <-; now exists y|apply IH]. Qed.
Lemma compr_len {A B} (f : A -> res B) l bs : comprehend f l = Ok bs -> length bs = length l.
Proof. intros H. apply compr_ok in H. induction H; cbn; congruence. Qed.
Lemma compr_total {A B} (f : A -> res B) l : (forall a, In a l -> exists b, f a = Ok b) -> exists bs, comprehend f l = Ok bs.
Proof.
  induction l as [|a l IH]; intros H; cbn [comprehend]; [now exists []|]. destruct (H a (or_introl eq_refl)) as (b & ->). destruct IH as (bs & ->); [intros x Hx; apply H; now right|]. now exists (b :: bs).
Qed.
Lemma as_num_ok c x h k d : h k = Some c -> as_num c = Ok x -> numeric h k d x.
Proof. intros Hk. destruct c; cbn; try discriminate; intros E; injection E as <-; [now constructor|now constructor]. Qed.
Lemma seq_nth_error a n i : i < n -> nth_error (seq a n) i = Some (a + i).
Proof. revert a i. induction n as [|n IH]; intros a i H; [lia|]. destruct i; cbn; [now rewrite Nat.add_0_r|]. rewrite IH by lia. f_equal. lia. Qed.
Lemma nth_of {A} (l : list A) i a d : nth_error l i = Some a -> nth i l d = a.
Proof. intros H. now apply nth_error_nth. Qed.

(* irregular grids *)
Lemma irregular_some h s n l : irregular h s n = Some l <-> length l = n /\ forall j, j < n -> h (key ("G" ++ s) (1 + j)) = nth_error l j.
Proof.
  unfold irregular. assert (G : forall a, fold_right (fun j acc => match h (key ("G" ++ s) j), acc with Some c, Some l => Some (c :: l) | _, _ => None end) (Some []) (seq a n) = Some l <-> length l = n /\ forall j, j < n -> h (key ("G" ++ s) (a + j)) = nth_error l j); [|apply G].
  revert l. induction n as [|n IH]; intros l a; cbn [seq fold_right].
  - split; [intros E; injection E as <-; split; [reflexivity|lia]|]. intros [E _]. now destruct l.
  - split.
    + destruct (h (key ("G" ++ s) a)) as [c|] eqn:Ec; [|discriminate]. destruct (fold_right _ _ (seq (S a) n)) as [l'|] eqn:El; [|discriminate]. intros E. injection E as <-. apply IH in El as [L El]. split; [cbn; now rewrite L|].
      intros j Hj. destruct j; [now rewrite Nat.add_0_r|]. cbn [nth_error]. rewrite <- El by lia. f_equal. f_equal. lia.
    + intros [L H]. destruct l as [|c l]; [discriminate|]. injection L as L. pose proof (H 0 ltac:(lia)) as H0. rewrite Nat.add_0_r in H0. cbn [nth_error] in H0. rewrite H0.
      rewrite (proj2 (IH l (S a))); [reflexivity|]. split; [exact L|]. intros j Hj. specialize (H (S j) ltac:(lia)). cbn [nth_error] in H. rewrite <- H. f_equal. f_equal. lia.
Qed.
Lemma irregular_none h s n : irregular h s n = None <-> exists j, 1 <= j <= n /\ h (key ("G" ++ s) j) = None.
Proof.
  unfold irregular. assert (G : forall a, fold_right (fun j acc => match h (key ("G" ++ s) j), acc with Some c, Some l => Some (c :: l) | _, _ => None end) (Some []) (seq a n) = None <-> exists j, a <= j < a + n /\ h (key ("G" ++ s) j) = None).
  { induction n as [|n IH]; intros a; cbn [seq fold_right]; [split; [discriminate|intros (j & ? & _); lia]|]. destruct (h (key ("G" ++ s) a)) as [c|] eqn:Ec.
    - destruct (fold_right _ _ (seq (S a) n)) as [l'|] eqn:El.
      + split; [discriminate|]. intros (j & Hj & E). destruct (Nat.eq_dec j a) as [->|]; [congruence|]. assert (X : Some l' = None) by (rewrite <- El; apply IH; exists j; split; [lia|exact E]). discriminate.
      + split; [|reflexivity]. intros _. apply IH in El as (j & Hj & E). exists j. split; [lia|exact E].
    - split; [|reflexivity]. intros _. exists a. split; [lia|exact Ec]. }
  rewrite G. split; intros (j & Hj & E); exists j; (split; [lia|exact E]).
Qed.

(* ---- the axes ---- *)
Section Axes.
  Variable h : header.
  Lemma fits_ok fa : fits_init h = Ok fa -> exists z, h "NAXIS"%string = Some (HInt z) /\ let n := Z.to_nat z in
    length (ctype fa) = n /\ forall i, i < n ->
      nth i (naxis fa) None = h (key "NAXIS" (1 + i)) /\
      (exists t, h (key "CTYPE" (1 + i)) = Some (HStr t) /\ nth i (ctype fa) EmptyString = strip t) /\
      nth i (crval fa) (HInt 0) = match h (key "CRVAL" (1 + i)) with Some c => c | None => HInt 0 end /\
      (exists x, numeric h (key "CRPIX" (1 + i)) None x /\ nth i (crpix fa) 0%R = (x - 1)%R) /\
      nth i (cdelt fa) (HInt 1) = match h (key "CDELT" (1 + i)) with Some c => c | None => HInt 1 end /\
      ((h (key "CUNIT" (1 + i)) = None /\ nth i (cunit fa) EmptyString = EmptyString) \/ exists t, h (key "CUNIT" (1 + i)) = Some (HStr t) /\ nth i (cunit fa) EmptyString = upper (strip t)).
  Proof.
    unfold fits_init. rewrite bind_ok'. intros (z & Ez & E). destruct (h "NAXIS"%string) as [[z'| |]|] eqn:En; try discriminate Ez. injection Ez as ->. exists z. split; [reflexivity|].
    apply bind_ok' in E as (ct & Ect & E). apply bind_ok' in E as (cp & Ecp & E). apply bind_ok' in E as (cu & Ecu & E). injection E as <-. cbv zeta. set (n := Z.to_nat z) in *. cbn [ctype naxis crval crpix cdelt cunit].
    split; [rewrite (compr_len _ _ _ Ect); apply seq_length|]. intros i Hi. pose proof (seq_nth_error 1 n i Hi) as Hs.
    assert (M : forall {A} (f : nat -> A) d, nth i (map f (seq 1 n)) d = f (1 + i)). { intros A f d. apply nth_of. now apply map_nth_error. }
    split; [apply M|]. split; [|split; [apply M|split; [|split; [apply M|]]]].
    - destruct (compr_nth _ _ _ i _ Ect Hs) as (b & Eb & Fb). destruct (h (key "CTYPE" (1 + i))) as [[| |t]|] eqn:Et; try discriminate. injection Fb as <-. exists t. split; [reflexivity|now apply nth_of].
    - destruct (compr_nth _ _ _ i _ Ecp Hs) as (b & Eb & Fb). destruct (h (key "CRPIX" (1 + i))) as [c|] eqn:Et; try discriminate. apply bind_ok' in Fb as (x & Ex & Fb). injection Fb as <-. exists x. split; [now apply (as_num_ok c)|now apply nth_of].
    - destruct (compr_nth _ _ _ i _ Ecu Hs) as (b & Eb & Fb). destruct (h (key "CUNIT" (1 + i))) as [[| |t]|] eqn:Et; try discriminate; injection Fb as <-; [right; exists t; split; [reflexivity|now apply nth_of]|left; split; [reflexivity|now apply nth_of]].
  Qed.
  Lemma num_default k d (c : card) x : as_num match h k with Some c => c | None => HInt d end = Ok x -> numeric h k (Some (IZR d)) x.
  Proof. destruct (h k) as [c'|] eqn:E; [now apply as_num_ok|]. cbn. intros H. injection H as <-. now apply nu_default. Qed.
  Lemma axes_ok axes i a : beam_axes (Some h) = Ok axes -> nth_error axes i = Some a ->
    exists z t pix, h (key "NAXIS" (1 + i)) = Some (HInt z) /\ h (key "CTYPE" (1 + i)) = Some (HStr t) /\ numeric h (key "CRPIX" (1 + i)) None pix /\
      a_size a = Z.to_nat z /\ a_ctype a = strip t /\
      ((exists j, 1 <= j <= a_size a /\ h (key ("G" ++ a_ctype a) j) = None) -> exists v d s, numeric h (key "CRVAL" (1 + i)) (Some 0%R) v /\ numeric h (key "CDELT" (1 + i)) (Some 1%R) d /\ scale h (1 + i) s /\
         forall j, a_grid a j = ((INR (j + 1) - pix) * (d * s) + v * s)%R) /\
      ((forall j, 1 <= j <= a_size a -> h (key ("G" ++ a_ctype a) j) <> None) -> forall j, j < a_size a -> numeric h (key ("G" ++ a_ctype a) (1 + j)) None (a_grid a j)).
  Proof.
    unfold beam_axes. rewrite bind_ok'. intros (fa & Ef & E) Ha. apply fits_ok in Ef as (z0 & _ & L & F). cbv zeta in L, F. rewrite L in E.
    assert (Hi : i < Z.to_nat z0). { rewrite <- (seq_length (Z.to_nat z0) 0), <- (compr_len _ _ _ E). apply nth_error_Some. congruence. }
    destruct (compr_nth _ _ _ i _ E (seq_nth_error 0 _ i Hi)) as (b & Eb & Fb). rewrite Ha in Eb. injection Eb as <-. cbn [Nat.add] in Fb.
    destruct (F i Hi) as (Fn & (t & Ft & Ft') & Fv & (pix & Fp & Fp') & Fd & Fu). clear F. unfold make_axis in Fb. apply bind_ok' in Fb as (z & Ez & Fb). rewrite Fn in Ez.
    destruct (h (key "NAXIS" (1 + i))) as [[z'| |]|] eqn:En; try discriminate Ez. injection Ez as ->. exists z, t, pix. split; [reflexivity|]. split; [exact Ft|]. split; [exact Fp|].
    rewrite Ft', Fv, Fp', Fd in Fb. cbv zeta in Fb. set (u := nth i (cunit fa) EmptyString) in *.
    assert (Sc : scale h (1 + i) (if String.eqb u "DEG" then (PI / 180)%R else 1%R)).
    { unfold scale, in_degrees. destruct (String.eqb_spec u "DEG") as [Eu|Nu].
      - left. split; [|reflexivity]. destruct Fu as [[_ Fu]|(t' & Fu & Fu')]; [rewrite Eu in Fu; discriminate|]. exists t'. split; [exact Fu|congruence].
      - right. split; [|reflexivity]. intros (t' & E1 & E2). destruct Fu as [[Fu _]|(t2 & Fu & Fu')]; [congruence|]. rewrite Fu in E1. injection E1 as ->. congruence. }
    destruct (irregular h (strip t) (Z.to_nat z)) as [l|] eqn:Ei.
    - apply bind_ok' in Fb as (_ & _ & Fb). apply bind_ok' in Fb as (g & Eg & Fb). injection Fb as <-. cbn [a_size a_ctype a_grid]. split; [reflexivity|]. split; [reflexivity|]. split.
      + intros Hn. apply irregular_none in Hn. congruence.
      + intros _ j Hj. apply irregular_some in Ei as [Ll El]. specialize (El j Hj). destruct (nth_error l j) as [c|] eqn:Ec; [|apply nth_error_None in Ec; lia]. destruct (compr_nth _ _ _ j _ Eg Ec) as (x & Ex & Fx). rewrite (nth_of _ _ _ _ Ex). now apply (as_num_ok c).
    - apply bind_ok' in Fb as (cv & Ecv & Fb). apply bind_ok' in Fb as (cd & Ecd & Fb). injection Fb as <-. apply bind_ok' in Ecv as (v & Ev & Ecv). apply bind_ok' in Ecd as (d & Ed & Ecd). injection Ecv as <-. injection Ecd as <-. cbn [a_size a_ctype a_grid].
      split; [reflexivity|]. split; [reflexivity|]. split.
      + intros _. apply (num_default _ 0%Z (HInt 0)) in Ev. apply (num_default _ 1%Z (HInt 0)) in Ed. eexists v, d, _. split; [exact Ev|]. split; [exact Ed|]. split; [exact Sc|].
        intros j. rewrite plus_INR. cbn [INR]. unfold deg2rad. destruct (String.eqb u "DEG"); ring.
      + intros Hn. apply irregular_none in Ei as (j & Hj & Ej). destruct (Hn j Hj Ej).
  Qed.
  Lemma axes_len axes : beam_axes (Some h) = Ok axes -> exists z, h "NAXIS"%string = Some (HInt z) /\ length axes = Z.to_nat z.
  Proof. unfold beam_axes. rewrite bind_ok'. intros (fa & Ef & E). apply fits_ok in Ef as (z0 & Hz & L & _). exists z0. split; [exact Hz|]. apply compr_len in E. rewrite seq_length in E. cbv zeta in L. lia. Qed.
  Lemma numeric_card k d x : numeric h k d x -> match h k with Some c => as_num c = Ok x | None => d = Some x end.
  Proof. intros H. destruct H as [z E|y E|y E D]; rewrite E; [reflexivity|reflexivity|exact D]. Qed.
  Lemma axes_total z : h "NAXIS"%string = Some (HInt z) -> (forall n, 1 <= n <= Z.to_nat z -> good_axis h n) -> exists axes, beam_axes (Some h) = Ok axes.
  Proof.
    intros Hz G. unfold beam_axes. destruct (fits_init h) as [fa|e] eqn:Ef.
    - cbn [bind]. apply fits_ok in Ef as (z' & Hz' & L & F). rewrite Hz in Hz'. injection Hz' as <-. cbv zeta in L, F. rewrite L. apply compr_total. intros i Hi. apply in_seq in Hi. destruct (F i ltac:(lia)) as (Fn & (t & Ft & Ft') & Fv & _ & Fd & Fu).
      destruct (G (1 + i) ltac:(lia)) as [(na & Hna) _ _ (v & Hv) (d & Hd) _ Hg]. apply numeric_card in Hv, Hd. unfold make_axis. rewrite Fn, Hna. cbn [as_int bind]. rewrite Ft', Fv, Fd. cbv zeta.
      assert (V : as_num match h (key "CRVAL" (1 + i)) with Some c => c | None => HInt 0 end = Ok v). { destruct (h (key "CRVAL" (1 + i))); [exact Hv|]. injection Hv as <-. reflexivity. }
      assert (D : as_num match h (key "CDELT" (1 + i)) with Some c => c | None => HInt 1 end = Ok d). { destruct (h (key "CDELT" (1 + i))); [exact Hd|]. injection Hd as <-. reflexivity. }
      rewrite V, D. cbn [bind]. destruct (irregular h (strip t) (Z.to_nat na)) as [l|] eqn:Ei; [|eexists; reflexivity].
      assert (X : exists g, comprehend as_num l = Ok g).
      { apply compr_total. intros c Hc. apply In_nth_error in Hc as (j & Hj). apply irregular_some in Ei as [Ll El]. assert (j < Z.to_nat na) by (rewrite <- Ll; apply nth_error_Some; congruence). rewrite <- El in Hj by assumption. destruct c as [y|y|y]; [eexists; reflexivity|eexists; reflexivity|]. destruct (Hg _ _ _ Hj). }
      destruct X as (g & ->). destruct (String.eqb _ _); cbn [bind]; eexists; reflexivity.
    - exfalso. unfold fits_init in Ef. rewrite Hz in Ef. cbn [as_int bind] in Ef. set (axr := seq 1 (Z.to_nat z)) in *. assert (In_axr : forall n, In n axr -> good_axis h n). { intros n Hn. apply in_seq in Hn. apply G. lia. }
      destruct (compr_total (fun n => match h (key "CTYPE" n) with Some (HStr s) => Ok (strip s) | _ => Raise AttributeErrorExn end) axr) as (ct & Ect).
      { intros n Hn. destruct (In_axr n Hn) as [_ (t & Ht) _ _ _ _ _]. rewrite Ht. eexists. reflexivity. }
      rewrite Ect in Ef. cbn [bind] in Ef.
      destruct (compr_total (fun n => match h (key "CRPIX" n) with None => Raise KeyError | Some c => do! x <- as_num c; Ok (x - 1)%R end) axr) as (cp & Ecp).
      { intros n Hn. destruct (In_axr n Hn) as [_ _ (x & Hx) _ _ _ _]. apply numeric_card in Hx. destruct (h (key "CRPIX" n)); [rewrite Hx; eexists; reflexivity|discriminate]. }
      rewrite Ecp in Ef. cbn [bind] in Ef.
      destruct (compr_total (fun n => match h (key "CUNIT" n) with None => Ok EmptyString | Some (HStr s) => Ok (upper (strip s)) | _ => Raise AttributeErrorExn end) axr) as (cu & Ecu).
      { intros n Hn. destruct (In_axr n Hn) as [_ _ _ _ _ [Hu|(t & Hu)] _]; rewrite Hu; eexists; reflexivity. }
      rewrite Ecu in Ef. discriminate Ef.
  Qed.
End Axes.
