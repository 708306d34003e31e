From Coq Require Import Reals Lra String.
From Verif Require Import Prelude PreludeFacts CRing CplxR LoopFacts RimeModel RimeSpec DftModel DftSpec DftProofs SrcModel SrcSpec SrcProofs.
Open Scope R_scope.

(* ---------- spectral model ---------- *)
Definition validb (b : base1) : bool := (is_std b || is_log b || is_log10 b)%bool.
(* the value the code computes for one element *)
Definition bval (b : base1) (n : nat) (I : R) (a : nat -> R) (nu rf : R) : R :=
  if is_std b then for_ n (fun si x => x * Rpower (nu / rf) (a si)) I
  else if is_log b then exp (for_ n (fun si x => x + a si * ln (nu / rf) ^ (si + 1)) (ln I))
  else exp10 (for_ n (fun si x => x + a si * log10 (nu / rf) ^ (si + 1)) (log10 I)).

Lemma fill_value (nsrc nchan p : nat) (val : nat -> nat -> R) out s f q :
  for_ nsrc (fun s out => for_ nchan (fun f out => upd3 out s f p (val s f)) out) out s f q =
  if (Nat.ltb s nsrc && Nat.ltb f nchan && Nat.eqb q p)%bool then val s f else out s f q.
Proof.
  destruct (Nat.ltb_spec s nsrc) as [Hs|Hs]; cbn [andb].
  2:{ apply (for_frame (fun x : arr3 R => x s f q)). intros i x Hi. apply (for_frame (fun x : arr3 R => x s f q)). intros j y Hj. apply upd3_neq. lia. }
  destruct (Nat.ltb_spec f nchan) as [Hf|Hf]; cbn [andb].
  2:{ apply (for_frame (fun x : arr3 R => x s f q)). intros i x Hi. apply (for_frame (fun x : arr3 R => x s f q)). intros j y Hj. apply upd3_neq. lia. }
  destruct (Nat.eqb_spec q p) as [E|Ne].
  2:{ apply (for_frame (fun x : arr3 R => x s f q)). intros i x Hi. apply (for_frame (fun x : arr3 R => x s f q)). intros j y Hj. apply upd3_neq. lia. }
  subst q. apply (for_at (fun x : arr3 R => x s f p) (fun _ => val s f) s); auto.
  - intros i x _ Ne. apply (for_frame (fun x : arr3 R => x s f p)). intros j y Hj. apply upd3_neq. auto.
  - intros x. apply (for_at (fun x : arr3 R => x s f p) (fun _ => val s f) f); auto.
    + intros j y _ Ne. apply upd3_neq. auto.
    + intros y. apply upd3_eq.
Qed.

Lemma spectral_step b p nsrc nchan nspi stokes spi rf freq out rest :
  spectral_loop (b :: rest) p nsrc nchan nspi stokes spi rf freq out =
  if validb b then
    spectral_loop rest (S p) nsrc nchan nspi stokes spi rf freq
      (for_ nsrc (fun s out => for_ nchan (fun f out => upd3 out s f p (bval b nspi (stokes s p) (fun si => spi s si p) (freq f) (rf s))) out) out)
  else Raise ValueError.
Proof.
  cbn [spectral_loop]. unfold validb, bval. destruct (is_std b); [reflexivity|]. destruct (is_log b); [reflexivity|].
  destruct (is_log10 b); reflexivity.
Qed.

Lemma spectral_loop_value bases : forall p nsrc nchan nspi stokes spi rf freq out,
  if forallb validb bases then
    exists m, spectral_loop bases p nsrc nchan nspi stokes spi rf freq out = Ok m /\
      forall s f q, (s < nsrc)%nat -> (f < nchan)%nat ->
        m s f q = (if (Nat.leb p q) then match nth_error bases (q - p) with
                   | Some b => bval b nspi (stokes s q) (fun si => spi s si q) (freq f) (rf s)
                   | None => out s f q end else out s f q)
  else spectral_loop bases p nsrc nchan nspi stokes spi rf freq out = Raise ValueError.
Proof.
  induction bases as [|b rest IH]; intros.
  - exists out. split; auto. intros. destruct (Nat.leb p q); auto. destruct (q - p)%nat; reflexivity.
  - cbn [forallb]. rewrite spectral_step. destruct (validb b); cbn [andb]; [|reflexivity].
    match goal with |- context [spectral_loop rest (S p) _ _ _ _ _ _ _ ?o] => set (out1 := o) end.
    specialize (IH (S p) nsrc nchan nspi stokes spi rf freq out1). destruct (forallb validb rest); [|exact IH].
    destruct IH as (m & E & V). exists m. split; auto. intros s f q Hs Hf. rewrite V by auto. unfold out1. rewrite fill_value.
    rewrite (proj2 (Nat.ltb_lt _ _) Hs), (proj2 (Nat.ltb_lt _ _) Hf). cbn [andb].
    destruct (Nat.leb_spec (S p) q); [|].
    + rewrite (proj2 (Nat.leb_le p q)) by lia. replace (q - p)%nat with (S (q - S p)) by lia. cbn [nth_error].
      destruct (nth_error rest (q - S p)); auto. destruct (Nat.eqb_spec q p); [lia|reflexivity].
    + destruct (Nat.eqb_spec q p) as [E1|Ne].
      * subst q. rewrite (proj2 (Nat.leb_le p p)) by lia. rewrite Nat.sub_diag. reflexivity.
      * destruct (Nat.leb_spec p q); [lia|reflexivity].
Qed.

(* the bases used for npol polarisations *)
Lemma promote_length bs npol l : promote_base bs npol = Ok l -> (npol <= List.length l)%nat.
Proof.
  destruct bs as [b|l0|]; cbn; [injection 1 as <-; rewrite repeat_length; auto| |discriminate].
  destruct (rev l0); [discriminate|]. injection 1 as <-. rewrite app_length, repeat_length. lia.
Qed.
Lemma promote_at bs npol l p b : promote_base bs npol = Ok l -> (p < npol)%nat -> (base_at bs p b <-> nth_error l p = Some b).
Proof.
  intros E Hp. destruct bs as [b0|l0|]; cbn in E; [|destruct (rev l0) as [|last r] eqn:Er; [discriminate|]|discriminate].
  - injection E as <-. split.
    + inversion 1; subst. rewrite nth_error_repeat; auto.
    + rewrite nth_error_repeat by auto. injection 1 as ->. constructor.
  - injection E as <-.
    assert (L : l0 = rev r ++ [last]) by (rewrite <- (rev_involutive l0), Er; reflexivity).
    assert (LL : nth_error l0 (List.length l0 - 1) = Some last).
    { rewrite L, app_length. cbn. rewrite Nat.add_sub. rewrite nth_error_app2 by auto. rewrite Nat.sub_diag. reflexivity. }
    assert (NE : l0 <> []) by (rewrite L; destruct (rev r); discriminate).
    destruct (Nat.lt_ge_cases p (List.length l0)) as [H|H].
    + rewrite nth_error_app1 by auto. split; [|now constructor]. inversion 1; subst; auto. lia.
    + rewrite nth_error_app2 by auto. rewrite nth_error_repeat by lia. split.
      * inversion 1; subst; [|congruence]. apply nth_error_None in H. congruence.
      * injection 1 as <-. now constructor.
Qed.
Lemma curve_valid b : validb b = true <-> exists pos c, curve b pos c.
Proof.
  split.
  - destruct b as [z|s]; unfold validb; cbn.
    + destruct (Z.eqb_spec z 0) as [->|]; [do 2 eexists; constructor|]. destruct (Z.eqb_spec z 1) as [->|]; [do 2 eexists; constructor|].
      destruct (Z.eqb_spec z 2) as [->|]; [do 2 eexists; constructor|discriminate].
    + destruct (String.eqb_spec s "std") as [->|]; [do 2 eexists; constructor|]. destruct (String.eqb_spec s "log") as [->|]; [do 2 eexists; constructor|].
      destruct (String.eqb_spec s "log10") as [->|]; [do 2 eexists; constructor|discriminate].
  - intros (pos & c & []); reflexivity.
Qed.
Lemma ln10 : ln 10 <> 0.
Proof. assert (0 < ln 10); [|lra]. rewrite <- ln_1. apply ln_increasing; lra. Qed.
Lemma power_loop n a x I : for_ n (fun si y => y * Rpower x (a si)) I = I * Rpower x (rsum n a).
Proof.
  induction n as [|n IH].
  - cbn. unfold Rpower. rewrite Rmult_0_l, exp_0. ring.
  - rewrite for_S, IH. change (rsum (S n) a) with (rsum n a + a n). rewrite Rpower_plus. ring.
Qed.
Lemma sum_loop n a x v : for_ n (fun si y => y + a si * x ^ (si + 1)) v = v + poly n a x.
Proof.
  induction n as [|n IH]; [cbn; ring|]. rewrite for_S, IH, poly_S. ring.
Qed.
Lemma bval_curve b pos c n I a nu rf : curve b pos c -> (pos = true -> 0 < I) -> bval b n I a nu rf = c n I a nu rf.
Proof.
  intros C HI. unfold bval.
  assert (L : 0 < I -> exp (ln I + poly n a (ln (nu / rf))) = ln_curve n I a nu rf).
  { intros H. unfold ln_curve. rewrite exp_plus, exp_ln by auto. reflexivity. }
  assert (T : 0 < I -> exp10 (log10 I + poly n a (log10 (nu / rf))) = log10_curve n I a nu rf).
  { intros H. unfold log10_curve, exp10, log10. rewrite Rpower_plus. f_equal. unfold Rpower.
    replace (ln I / ln 10 * ln 10) with (ln I) by (field; apply ln10). now apply exp_ln. }
  destruct C; cbn; rewrite ?power_loop, ?sum_loop; auto.
Qed.

Lemma nth_error_firstn' {A} n (l : list A) i : (i < n)%nat -> nth_error (firstn n l) i = nth_error l i.
Proof. revert l i. induction n as [|n IH]; intros l i H; [lia|]. destruct l, i; cbn; auto. apply IH. lia. Qed.

(* the model with the promoted bases *)
Lemma spectral_model_eq nsrc nchan nspi d stokes spi rf freq bs g l : promote_base bs (npol_of d) = Ok l ->
  spectral_model nsrc nchan nspi d d stokes spi rf freq bs g =
  spectral_loop (firstn (npol_of d) l) 0 nsrc nchan nspi stokes spi rf freq g.
Proof.
  intros E. unfold spectral_model. destruct bs as [b|l0|]; [| |discriminate];
    (destruct d; cbn [npol_of] in *; rewrite Nat.eqb_refl; cbn [negb]; rewrite E; reflexivity).
Qed.
Lemma forallb_nth {A} (p : A -> bool) l : forallb p l = true <-> forall i x, nth_error l i = Some x -> p x = true.
Proof.
  rewrite forallb_forall. split.
  - intros H i x E. apply H. eapply nth_error_In. eauto.
  - intros H x I. apply In_nth_error in I. destruct I as (i & E). eauto.
Qed.
Lemma promote_ok bs npol : bs <> BOther -> bs <> BList [] -> exists l, promote_base bs npol = Ok l.
Proof.
  intros A B. destruct bs as [b|l0|]; cbn; [eauto| |contradiction]. destruct (rev l0) eqn:E; [|eauto].
  destruct B. f_equal. rewrite <- (rev_involutive l0), E. reflexivity.
Qed.

Theorem spectral_value nsrc nchan nspi d stokes spi rf freq bs g : bs <> BOther -> bs <> BList [] ->
  (forall p, (p < npol_of d)%nat -> exists b pos c, base_at bs p b /\ curve b pos c) ->
  exists m, spectral_model nsrc nchan nspi d d stokes spi rf freq bs g = Ok m /\
    forall s f p b pos c, (s < nsrc)%nat -> (f < nchan)%nat -> (p < npol_of d)%nat ->
      base_at bs p b -> curve b pos c -> (pos = true -> 0 < stokes s p) ->
      m s f p = c nspi (stokes s p) (fun si => spi s si p) (freq f) (rf s).
Proof.
  intros A B HV. destruct (promote_ok bs (npol_of d) A B) as (l & El). rewrite (spectral_model_eq _ _ _ _ _ _ _ _ _ _ l El).
  assert (G := spectral_loop_value (firstn (npol_of d) l) 0 nsrc nchan nspi stokes spi rf freq g).
  assert (F : forallb validb (firstn (npol_of d) l) = true).
  { apply forallb_nth. intros i x E. assert (Hi : (i < npol_of d)%nat).
    { assert (X : (i < List.length (firstn (npol_of d) l))%nat) by (apply nth_error_Some; congruence). rewrite firstn_length in X. lia. }
    rewrite nth_error_firstn' in E by auto. apply curve_valid. destruct (HV i Hi) as (b & pos & c & Ab & Cb).
    apply (promote_at bs _ l i b El Hi) in Ab. assert (b = x) by congruence. subst. eauto. }
  rewrite F in G. destruct G as (m & E & V). exists m. split; auto. intros s f p b pos c Hs Hf Hp Ab Cb HI. rewrite V by auto.
  cbn [Nat.leb]. rewrite Nat.sub_0_r, nth_error_firstn' by auto. rewrite (proj1 (promote_at bs _ l p b El Hp) Ab).
  apply (bval_curve b pos c); auto.
Qed.
Theorem spectral_unknown nsrc nchan nspi d stokes spi rf freq bs g p b : (p < npol_of d)%nat -> base_at bs p b ->
  (forall pos c, ~ curve b pos c) -> spectral_model nsrc nchan nspi d d stokes spi rf freq bs g = Raise ValueError.
Proof.
  intros Hp Ab N. assert (A : bs <> BOther) by (intros ->; inversion Ab).
  assert (B : bs <> BList []). { intros ->. inversion Ab; subst; [destruct p; discriminate|auto]. }
  destruct (promote_ok bs (npol_of d) A B) as (l & El). rewrite (spectral_model_eq _ _ _ _ _ _ _ _ _ _ l El).
  assert (G := spectral_loop_value (firstn (npol_of d) l) 0 nsrc nchan nspi stokes spi rf freq g).
  destruct (forallb validb (firstn (npol_of d) l)) eqn:F; [|exact G]. exfalso.
  apply (promote_at bs _ l p b El Hp) in Ab. rewrite <- (nth_error_firstn' (npol_of d)) in Ab by auto.
  assert (X : validb b = true) by (eapply (proj1 (forallb_nth _ _) F); eauto). apply curve_valid in X. destruct X as (pos & c & X). eapply N; eauto.
Qed.
Theorem spectral_pols nsrc nchan nspi d d' stokes spi rf freq bs g : bs <> BOther -> d <> d' ->
  spectral_model nsrc nchan nspi d d' stokes spi rf freq bs g = Raise ValueError.
Proof.
  intros A B. unfold spectral_model. destruct bs; [| |contradiction]; (destruct d as [n|], d' as [n'|]; auto;
    [destruct (Nat.eqb_spec (npol_of (Some n)) (npol_of (Some n'))) as [E|E]; cbn in *; [congruence|reflexivity] | congruence]).
Qed.
Theorem curve_at_reference b pos c n I a nu : curve b pos c -> nu <> 0 -> c n I a nu nu = I.
Proof.
  intros C H. assert (E : nu / nu = 1) by (field; auto).
  destruct C; unfold power_law, ln_curve, log10_curve, Rpower; rewrite E, ?ln_1; unfold Rdiv; rewrite ?Rmult_0_l, ?Rmult_0_r, ?poly_0, ?Rmult_0_l, ?exp_0; ring.
Qed.

(* ---------- the numpy reference ---------- *)
Lemma prod_loop n (a : nat -> R) x I : for_ n (fun si y => y * Rpower x (a si)) I = I * prodR n (fun si => Rpower x (a si)).
Proof. induction n as [|n IH]; [cbn; ring|]. rewrite for_S, IH. cbn [prodR]. ring. Qed.
Lemma loops_agree bases : forall p npol nsrc nchan nspi stokes spi rf freq out out',
  (p + List.length bases = npol)%nat ->
  (forall s f q, (s < nsrc)%nat -> (f < nchan)%nat -> (q < npol)%nat -> if Nat.ltb q p then out s f q = out' s f q else out' s f q = stokes s q) ->
  agree nsrc nchan npol (spectral_loop bases p nsrc nchan nspi stokes spi rf freq out) (numpy_loop bases p npol nspi stokes spi rf freq out').
Proof.
  induction bases as [|b rest IH]; intros p npol nsrc nchan nspi stokes spi rf freq out out' EL HR.
  - cbn [spectral_loop numpy_loop agree List.length] in *. intros s f q Hs Hf Hq. specialize (HR s f q Hs Hf Hq). rewrite (proj2 (Nat.ltb_lt q p)) in HR by lia. exact HR.
  - rewrite spectral_step. cbn [numpy_loop]. cbn [List.length] in EL. rewrite (proj2 (Nat.ltb_lt p npol)) by lia.
    change (in_std b) with (is_std b). change (in_log b) with (is_log b). change (in_log10 b) with (is_log10 b).
    assert (ST : forall val new, (forall s f, (s < nsrc)%nat -> (f < nchan)%nat -> new s f p = val s f) ->
      (forall s f q, q <> p -> new s f q = out' s f q) ->
      agree nsrc nchan npol (spectral_loop rest (S p) nsrc nchan nspi stokes spi rf freq
        (for_ nsrc (fun s out => for_ nchan (fun f out => upd3 out s f p (val s f)) out) out))
        (numpy_loop rest (S p) npol nspi stokes spi rf freq new)).
    { intros val new H1 H2. apply IH; [lia|]. intros s f q Hs Hf Hq. specialize (HR s f q Hs Hf Hq). rewrite fill_value.
      rewrite (proj2 (Nat.ltb_lt s nsrc) Hs), (proj2 (Nat.ltb_lt f nchan) Hf). cbn [andb].
      destruct (Nat.eqb_spec q p) as [E|Ne].
      - subst q. rewrite (proj2 (Nat.ltb_lt p (S p))) by lia. symmetry. auto.
      - rewrite H2 by auto. destruct (Nat.ltb_spec q p), (Nat.ltb_spec q (S p)); auto; lia. }
    unfold validb, bval. destruct (is_std b) eqn:E1; cbn [orb bind].
    { apply ST; [|intros s f q Ne; destruct (Nat.eqb_spec q p); [contradiction|reflexivity]].
      intros s f Hs Hf. rewrite Nat.eqb_refl, prod_loop. f_equal. specialize (HR s f p Hs Hf ltac:(lia)). rewrite Nat.ltb_irrefl in HR. exact HR. }
    destruct (is_log b) eqn:E2; cbn [orb bind].
    { apply ST; [|intros s f q Ne; destruct (Nat.eqb_spec q p); [contradiction|reflexivity]].
      intros s f Hs Hf. rewrite Nat.eqb_refl, sum_loop. reflexivity. }
    destruct (is_log10 b) eqn:E3; cbn [orb bind]; [|reflexivity].
    apply ST; [|intros s f q Ne; destruct (Nat.eqb_spec q p); [contradiction|reflexivity]].
    intros s f Hs Hf. rewrite Nat.eqb_refl, sum_loop. reflexivity.
Qed.
Theorem compiled_reference nsrc nchan nspi d stokes spi rf freq bs g : base_fits bs (npol_of d) ->
  agree nsrc nchan (npol_of d) (spectral_model nsrc nchan nspi d d stokes spi rf freq bs g)
    (numpy_spectral_model nspi d stokes spi rf freq bs).
Proof.
  intros HF.
  assert (P : match bs with
               | BList l => match rev l with [] => Raise IndexError | last :: _ => Ok (l ++ repeat last (npol_of d - List.length l)) end
               | BOne b => Ok (repeat b (npol_of d))
               | BOther => if Nat.eqb (npol_of d) 0 then Ok [] else Raise ValueError
               end = promote_base bs (npol_of d)) by (destruct bs; cbn in *; auto; contradiction).
  unfold numpy_spectral_model. cbv zeta. rewrite P.
  destruct (promote_base bs (npol_of d)) as [l|e] eqn:E.
  - rewrite (spectral_model_eq _ _ _ _ _ _ _ _ _ _ l E). cbn [bind].
    assert (LN : List.length l = npol_of d).
    { destruct bs as [b|l0|]; cbn in *; [|destruct (rev l0); [discriminate|]|contradiction]; injection E as <-; rewrite ?app_length, ?repeat_length; lia. }
    rewrite <- LN at 2. rewrite firstn_all. apply loops_agree; [auto|]. intros s f q Hs Hf Hq. cbn. reflexivity.
  - unfold spectral_model. destruct bs as [b|l0|]; cbn in HF; [discriminate| |contradiction].
    destruct d; cbn [npol_of] in *; rewrite Nat.eqb_refl; cbn [negb]; rewrite E; reflexivity.
Qed.

(* ---------- dask spectral model ---------- *)
Lemma locate_total chunks i s n : (i < list_sum chunks)%nat -> locate 0 chunks i = (s, n) -> (s <= i < s + n)%nat.
Proof. intros H E. apply locate_spec in E; lia. Qed.
Lemma bval_ext b n I a a' nu rf : (forall i, a i = a' i) -> bval b n I a nu rf = bval b n I a' nu rf.
Proof.
  intros H. unfold bval. destruct (is_std b); [|destruct (is_log b)]; [|f_equal|f_equal]; apply for_ext; intros; rewrite H; reflexivity.
Qed.
Theorem dask_spectral_eq src chan pol nspi stokes spi rf freq bs g g' s f p :
  (exists b, bs = BOne b) \/ (pol = [list_sum pol] /\ bs <> BOther) ->
  (s < list_sum src)%nat -> (f < list_sum chan)%nat -> (p < list_sum pol)%nat ->
  dask_spectral_model src chan [nspi] pol stokes spi rf freq bs g s f p =
  do! m <- spectral_model (list_sum src) (list_sum chan) nspi (Some (list_sum pol)) (Some (list_sum pol)) stokes spi rf freq bs g';
  Ok (m s f p).
Proof.
  intros HB Hs Hf Hp. unfold dask_spectral_model. cbn [List.length Nat.eqb negb hd].
  destruct (locate 0 src s) as [s0 ns] eqn:Es, (locate 0 chan f) as [f0 nf] eqn:Ef, (locate 0 pol p) as [p0 np] eqn:Ep.
  apply locate_total in Es; auto. apply locate_total in Ef; auto. assert (Ep' := Ep). apply locate_total in Ep'; auto.
  assert (BO : bs <> BOther) by (destruct HB as [(b & ->)|(_ & B)]; congruence).
  (* bases of the block and of the whole *)
  assert (PR : (exists l L, promote_base bs np = Ok l /\ promote_base bs (list_sum pol) = Ok L /\
     forallb validb (firstn np l) = forallb validb (firstn (list_sum pol) L) /\
     nth_error (firstn np l) (p - p0) = nth_error (firstn (list_sum pol) L) p) \/
     (promote_base bs np = Raise IndexError /\ promote_base bs (list_sum pol) = Raise IndexError)).
  { destruct HB as [(b & ->)|(EP & _)].
    - left. exists (repeat b np), (repeat b (list_sum pol)). repeat split; auto.
      + assert (R : forall k, (0 < k)%nat -> forallb validb (firstn k (repeat b k)) = validb b).
        { intros k. rewrite <- (repeat_length b k) at 2. rewrite firstn_all. induction k as [|k IH]; [lia|]. intros _. cbn.
          destruct k; [now rewrite Bool.andb_true_r|]. rewrite IH by lia. apply Bool.andb_diag. }
        rewrite !R by lia. reflexivity.
      + rewrite !nth_error_firstn', !nth_error_repeat by lia. reflexivity.
    - rewrite EP in Ep. cbn [locate] in Ep. rewrite (proj2 (Nat.ltb_lt _ _)) in Ep by (cbn in *; lia). injection Ep as <- <-.
      rewrite Nat.sub_0_r. destruct (promote_base bs (list_sum pol)) as [L|e] eqn:E.
      + left. exists L, L. auto.
      + right. split; destruct bs as [b|l0|]; cbn in *; try discriminate; try contradiction; destruct (rev l0); try discriminate; injection E as <-; auto. }
  destruct PR as [(l & L & El & EL & EV & EN)|(E1 & E2)].
  2:{ unfold spectral_model. destruct bs as [b|l0|]; [| |contradiction]; cbn [npol_of]; rewrite !Nat.eqb_refl; cbn [negb]; rewrite E1, E2; reflexivity. }
  rewrite (spectral_model_eq ns nf nspi (Some np) _ _ _ _ _ _ l El), (spectral_model_eq (list_sum src) _ _ (Some (list_sum pol)) _ _ _ _ _ _ L EL).
  cbn [npol_of].
  assert (G1 := spectral_loop_value (firstn np l) 0 ns nf nspi (fun i j => stokes (s0 + i)%nat (p0 + j)%nat)
             (fun i k j => spi (s0 + i)%nat k (p0 + j)%nat) (fun i => rf (s0 + i)%nat) (fun i => freq (f0 + i)%nat) g).
  assert (G2 := spectral_loop_value (firstn (list_sum pol) L) 0 (list_sum src) (list_sum chan) nspi stokes spi rf freq g').
  rewrite EV in G1. destruct (forallb validb (firstn (list_sum pol) L)); [|rewrite G1, G2; reflexivity].
  destruct G1 as (m & Em & V), G2 as (M & EM & VM). rewrite Em, EM. cbn [bind]. f_equal. rewrite V, VM by lia. cbn [Nat.leb].
  rewrite !Nat.sub_0_r, EN.
  replace (s0 + (s - s0))%nat with s by lia. replace (f0 + (f - f0))%nat with f by lia. replace (p0 + (p - p0))%nat with p by lia.
  destruct (nth_error (firstn (list_sum pol) L) p) as [b|] eqn:EB; [reflexivity|].
  exfalso. rewrite nth_error_firstn' in EB by auto. apply promote_length in EL. apply nth_error_None in EB. lia.
Qed.
