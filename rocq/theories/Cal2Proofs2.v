From Coq Require Import Reals Lra Ring.
From Verif Require Import Prelude PreludeFacts LoopFacts CRing CField CplxR CplxF NumpyModel AvgModel AvgSpec PredictModel PredictSpec PredictProofs CalModel CalSpec CalProofs CalProofs2
  RimeModel RimeSpec Cal2Model Cal2Spec.
Open Scope nat_scope.

(* ---------- the solver loop, seen at one entry ---------- *)
Lemma solver_obs {T} {K : cops} (L : claws K) (obs : T -> K) nt nc nd tbi tmin tbc skip body (st : T) t nu s (v : nat -> K) :
  t < nt -> nu < nc -> s < nd ->
  (forall t' row nu' s' st, obs (body t' row nu' s' st) = if (Nat.eqb t' t && Nat.eqb nu' nu && Nat.eqb s' s)%bool then cadd (obs st) (v row) else obs st) ->
  obs (solver_loop nt nc nd (fun t => (tbi t - tmin)%Z) tbc skip body st) =
  cadd (obs st) (bin_sum tbi tmin tbc t (fun r => if skip r nu then c0 else v r)).
Proof.
  intros Ht Hnu Hs H. unfold solver_loop, bin_sum, bin_row. cbv zeta.
  assert (Z : forall x : K, cadd x c0 = x) by (intros x; rewrite (Radd_comm (law_ring K L)); apply (Radd_0_l (law_ring K L))).
  apply (for_at obs (fun x => cadd x (csum (tbc t) (fun k => if skip (Z.to_nat (tbi t - tmin) + k) nu then c0 else v (Z.to_nat (tbi t - tmin) + k)))) t); auto.
  - intros t' st' Ht' Ne. apply for_frame. intros k st2 _. apply for_frame. intros nu' st3 _. destruct skip; auto. apply for_frame. intros s' st4 _.
    rewrite H. destruct (Nat.eqb_spec t' t); [contradiction|reflexivity].
  - intros st'. apply (for_csum L). intros k st2 Hk. set (row := Z.to_nat (tbi t - tmin) + k).
    apply (for_at obs (fun x => cadd x (if skip row nu then c0 else v row)) nu); auto.
    + intros nu' st3 Hnu' Ne. destruct skip; auto. apply for_frame. intros s' st4 _. rewrite H. destruct (Nat.eqb_spec nu' nu); [contradiction|]. now rewrite andb_false_r.
    + intros st3. destruct (skip row nu); [now rewrite Z|]. apply (for_at obs (fun x => cadd x (v row)) s); auto.
      * intros s' st4 _ Ne. rewrite H. destruct (Nat.eqb_spec s' s); [contradiction|]. now rewrite !andb_false_r.
      * intros st4. rewrite H, !Nat.eqb_refl. reflexivity.
Qed.
Lemma gadd_at {K : cops} (L : claws K) (x : garr K) t a nu s v t' a' nu' s' i j :
  gadd x t' a' nu' s' v t a nu s i j = if (Nat.eqb t' t && Nat.eqb nu' nu && Nat.eqb s' s)%bool then cadd (x t a nu s i j) (if Nat.eqb a' a then v i j else c0) else x t a nu s i j.
Proof.
  unfold gadd. rewrite (Nat.eqb_sym t t'), (Nat.eqb_sym a a'), (Nat.eqb_sym nu nu'), (Nat.eqb_sym s s').
  assert (Z : forall x : K, cadd x c0 = x) by (intros y; rewrite (Radd_comm (law_ring K L)); apply (Radd_0_l (law_ring K L))).
  destruct (Nat.eqb t' t), (Nat.eqb a' a), (Nat.eqb nu' nu), (Nat.eqb s' s); cbn [andb]; auto; now rewrite Z.
Qed.
Lemma bin_sum_ext {K : cops} tbi tmin tbc t (f g : nat -> K) :
  (forall k, k < tbc t -> f (bin_row tbi tmin t k) = g (bin_row tbi tmin t k)) -> bin_sum tbi tmin tbc t f = bin_sum tbi tmin tbc t g.
Proof. intros H. apply csum_ext. exact H. Qed.

Section Loop.
  Context (n : nat) (tbi : arr Z) (tbc ant1 ant2 : arr nat) (g : gain_arr RCF) (m : model_arr RCF) (flag : nat -> nat -> arr2 bool) (tmin : Z).
  Context (use : nat -> nat -> bool).
  Notation M := (fun r f s c => m_at m r f s c 0).

  Lemma jac_seen a b t r f s c sign : ant1 r = a -> ant2 r = b ->
    jacobian DIAG_DIAG (j_at g t a f s) (m_at m r f s) (j_at g t b f s) sign c 0 = cmul sign (seen ant1 ant2 M (j_at g) t r f s c).
  Proof. intros <- <-. unfold jacobian, seen. cbn [RCF fcar]. rc. Qed.
  Lemma jsq_seen t r f s c (sign : RC) : sign = im_unit \/ sign = copp im_unit ->
    jsq (jacobian DIAG_DIAG (j_at g t (ant1 r) f s) (m_at m r f s) (j_at g t (ant2 r) f s) sign) c 0 = norm2 (seen ant1 ant2 M (j_at g) t r f s c).
  Proof.
    intros Hs. unfold jsq. rewrite (jac_seen (ant1 r) (ant2 r)) by reflexivity. set (z := seen _ _ _ _ _ _ _ _ _). clearbody z. destruct z as [x y].
    destruct Hs as [-> | ->]; unfold norm2, re, im, im_unit; cbn; ring.
  Qed.
  Lemma minus_i_eq : minus_i = copp im_unit.
  Proof. unfold minus_i, im_unit. cbn. f_equal. ring. Qed.

  Hypothesis (Hn : 0 < n) (Hm : is_min n tbi tmin).
  Hypothesis Huse : forall r f, use r f = true <-> ~ flagged false (m_corr m) (flag r f).
  Hypothesis (Hc : check_type (j_ndim g) (m_ndim m) VT_model = Ok DIAG_DIAG).
  Lemma zmin_eq : zmin n tbi = tmin.
  Proof. apply (is_min_unique n tbi); [now apply zmin_is_min|exact Hm]. Qed.
  Lemma use_skip r f : any_flag DIAG_DIAG (m_corr m) (flag r f) = negb (use r f).
  Proof.
    destruct (any_flag DIAG_DIAG (m_corr m) (flag r f)) eqn:E; destruct (use r f) eqn:U; auto.
    - apply (any_flag_spec DIAG_DIAG) in E. apply Huse in U. contradiction.
    - exfalso. assert (N : ~ flagged false (m_corr m) (flag r f)).
      { intros Fl. apply (any_flag_spec DIAG_DIAG) in Fl. congruence. }
      apply Huse in N. congruence.
  Qed.
  Theorem jhj_value : exists tbi' jhj, compute_jhj n tbi tbc ant1 ant2 g m flag = Ok (tbi', jhj) /\
    (forall t, tbi' t = (tbi t - tmin)%Z) /\
    forall t a f s c, t < j_tim g -> f < j_chan g -> s < j_dir g -> jhj t a f s c 0 = JHJ tbi tmin tbc ant1 ant2 use M (j_at g) t a f s c.
  Proof.
    unfold compute_jhj. rewrite Hc. cbn [bind]. destruct (Nat.eqb_spec n 0); [lia|]. rewrite zmin_eq.
    do 2 eexists. split; [reflexivity|]. split; [reflexivity|]. intros t a f s c Ht Hf Hs.
    pose (v := fun r => cadd (c := RR) (if Nat.eqb (ant1 r) a then norm2 (seen ant1 ant2 M (j_at g) t r f s c) else 0%R)
                            (if Nat.eqb (ant2 r) a then norm2 (seen ant1 ant2 M (j_at g) t r f s c) else 0%R)).
    rewrite (solver_obs RR_laws (fun x => x t a f s c 0) _ _ _ tbi tmin tbc _ _ _ t f s v); auto.
    - rewrite (Radd_0_l (law_ring RR RR_laws)). apply bin_sum_ext. intros k Hk. rewrite use_skip. destruct (use _ f); reflexivity.
    - intros t' row nu' s' st. cbv zeta. rewrite !(gadd_at RR_laws).
      destruct (Nat.eqb_spec t' t); [|reflexivity]. destruct (Nat.eqb_spec nu' f); [|reflexivity]. destruct (Nat.eqb_spec s' s); [|reflexivity]. subst. cbn [andb].
      rewrite minus_i_eq. rewrite !jsq_seen by auto. unfold v. symmetry. apply (Radd_assoc (law_ring RR RR_laws)).
  Qed.
  Theorem jhr_value (res : vis_arr RCF) : exists tbi' jhr, compute_jhr n tbi tbc ant1 ant2 g res m flag = Ok (tbi', jhr) /\
    (forall t, tbi' t = (tbi t - tmin)%Z) /\
    forall t a f s c, t < j_tim g -> f < j_chan g -> s < j_dir g -> jhr t a f s c 0 = JHR tbi tmin tbc ant1 ant2 use M (j_at g) (fun r f c => v_at res r f c 0) t a f s c.
  Proof.
    unfold compute_jhr. rewrite Hc. cbn [bind]. destruct (Nat.eqb_spec n 0); [lia|]. rewrite zmin_eq.
    do 2 eexists. split; [reflexivity|]. split; [reflexivity|]. intros t a f s c Ht Hf Hs.
    pose (v := fun r => cadd (if Nat.eqb (ant1 r) a then cmul (cconj (cmul im_unit (seen ant1 ant2 M (j_at g) t r f s c))) (v_at res r f c 0) else c0)
                            (if Nat.eqb (ant2 r) a then cmul (cconj (cmul (copp im_unit) (seen ant1 ant2 M (j_at g) t r f s c))) (v_at res r f c 0) else c0) : RC).
    rewrite (solver_obs RC_laws (fun x : garr RC => x t a f s c 0) _ _ _ tbi tmin tbc _ _ _ t f s v); auto.
    - rewrite (Radd_0_l (law_ring RC RC_laws)). apply bin_sum_ext. intros k Hk. rewrite use_skip. destruct (use _ f); reflexivity.
    - intros t' row nu' s' st. cbv zeta. rewrite !(gadd_at (K := RCF) RC_laws).
      destruct (Nat.eqb_spec t' t); [|reflexivity]. destruct (Nat.eqb_spec nu' f); [|reflexivity]. destruct (Nat.eqb_spec s' s); [|reflexivity]. subst. cbn [andb].
      unfold jres. rewrite !(jac_seen (ant1 row) (ant2 row)) by reflexivity. rewrite minus_i_eq. unfold v. symmetry. apply (Radd_assoc (law_ring RC RC_laws)).
  Qed.
  (* both at once *)
  Theorem jhj_jhr_value (res : vis_arr RCF) : check_type (j_ndim g) (v_ndim res) VT_vis = Ok DIAG_DIAG -> v_corr res = m_corr m ->
    exists tbi' jhj jhr, compute_jhj_and_jhr n tbi tbc ant1 ant2 g res m flag = Ok (tbi', (jhj, jhr)) /\
    (forall t, tbi' t = (tbi t - tmin)%Z) /\
    forall t a f s c, t < j_tim g -> f < j_chan g -> s < j_dir g ->
      jhj t a f s c 0 = JHJ tbi tmin tbc ant1 ant2 use M (j_at g) t a f s c /\
      jhr t a f s c 0 = JHR tbi tmin tbc ant1 ant2 use M (j_at g) (fun r f c => v_at res r f c 0) t a f s c.
  Proof.
    intros Hc2 Hv. unfold compute_jhj_and_jhr. rewrite Hc2. cbn [bind]. destruct (Nat.eqb_spec n 0); [lia|]. rewrite zmin_eq, Hv.
    match goal with |- context [solver_loop ?a ?b ?c ?d ?e ?f ?g ?h] => destruct (solver_loop a b c d e f g h) as [jhj jhr] eqn:E end.
    exists (fun t => (tbi t - tmin)%Z), jhj, jhr. split; [reflexivity|]. split; [reflexivity|]. intros t a f s c Ht Hf Hs.
    change jhj with (fst (jhj, jhr)) at 1. change jhr with (snd (jhj, jhr)) at 2. rewrite <- E. clear E. split.
    - pose (v := fun r => cadd (c := RR) (if Nat.eqb (ant1 r) a then norm2 (seen ant1 ant2 M (j_at g) t r f s c) else 0%R)
                            (if Nat.eqb (ant2 r) a then norm2 (seen ant1 ant2 M (j_at g) t r f s c) else 0%R)).
      rewrite (solver_obs RR_laws (fun x : garr RR * garr RC => fst x t a f s c 0) _ _ _ tbi tmin tbc _ _ _ t f s v); auto.
      + cbn [fst]. rewrite (Radd_0_l (law_ring RR RR_laws)). apply bin_sum_ext. intros k Hk. rewrite use_skip. destruct (use _ f); reflexivity.
      + intros t' row nu' s' [x y]. cbv zeta. cbn [fst]. rewrite !(gadd_at RR_laws).
        destruct (Nat.eqb_spec t' t); [|reflexivity]. destruct (Nat.eqb_spec nu' f); [|reflexivity]. destruct (Nat.eqb_spec s' s); [|reflexivity]. subst. cbn [andb].
        rewrite minus_i_eq. rewrite !jsq_seen by auto. unfold v. symmetry. apply (Radd_assoc (law_ring RR RR_laws)).
    - pose (v := fun r => cadd (if Nat.eqb (ant1 r) a then cmul (cconj (cmul im_unit (seen ant1 ant2 M (j_at g) t r f s c))) (v_at res r f c 0) else c0)
                            (if Nat.eqb (ant2 r) a then cmul (cconj (cmul (copp im_unit) (seen ant1 ant2 M (j_at g) t r f s c))) (v_at res r f c 0) else c0) : RC).
      rewrite (solver_obs RC_laws (fun x : garr RR * garr RC => snd x t a f s c 0) _ _ _ tbi tmin tbc _ _ _ t f s v); auto.
      + cbn [snd]. rewrite (Radd_0_l (law_ring RC RC_laws)). apply bin_sum_ext. intros k Hk. rewrite use_skip. destruct (use _ f); reflexivity.
      + intros t' row nu' s' [x y]. cbv zeta. cbn [snd]. rewrite !(gadd_at (K := RCF) RC_laws).
        destruct (Nat.eqb_spec t' t); [|reflexivity]. destruct (Nat.eqb_spec nu' f); [|reflexivity]. destruct (Nat.eqb_spec s' s); [|reflexivity]. subst. cbn [andb].
        unfold jres. rewrite !(jac_seen (ant1 row) (ant2 row)) by reflexivity. rewrite minus_i_eq. unfold v. symmetry. apply (Radd_assoc (law_ring RC RC_laws)).
  Qed.
End Loop.

(* the entries of the Jacobian are derivatives *)
Theorem jacobian_derivative (m : jones RCF) (p q : R) :
  let V := fun x y : R => cmul (cmul (cis x) (m 0 0 : RC)) (cconj (cis y)) in
  let J := fun sign : RC => jacobian DIAG_DIAG (fun _ _ => cis p) m (fun _ _ => cis q) sign 0 0 in
  derivable_pt_lim (fun x => re (V x q)) p (re (J plus_i)) /\ derivable_pt_lim (fun x => im (V x q)) p (im (J plus_i)) /\
  derivable_pt_lim (fun y => re (V p y)) q (re (J minus_i)) /\ derivable_pt_lim (fun y => im (V p y)) q (im (J minus_i)).
Proof.
  cbv zeta. unfold jacobian, plus_i, minus_i, cis, re, im. destruct (m 0 0) as [a b] eqn:E. cbn.
  assert (DC : forall k x, derivable_pt_lim (fun x => cos x * k)%R x (- sin x * k)%R).
  { intros k x. replace (- sin x * k)%R with (- sin x * k + cos x * 0)%R by ring. apply (derivable_pt_lim_mult cos (fun _ => k)); [apply derivable_pt_lim_cos|apply derivable_pt_lim_const]. }
  assert (DS : forall k x, derivable_pt_lim (fun x => sin x * k)%R x (cos x * k)%R).
  { intros k x. replace (cos x * k)%R with (cos x * k + sin x * 0)%R by ring. apply (derivable_pt_lim_mult sin (fun _ => k)); [apply derivable_pt_lim_sin|apply derivable_pt_lim_const]. }
  assert (D : forall k1 k2 h d x, (forall y, h y = cos y * k1 + sin y * k2)%R -> d = (- sin x * k1 + cos x * k2)%R -> derivable_pt_lim h x d).
  { intros k1 k2 h d x Hh ->. assert (X : derivable_pt_lim (fun y => cos y * k1 + sin y * k2)%R x (- sin x * k1 + cos x * k2)%R).
    { apply (derivable_pt_lim_plus (fun y => cos y * k1)%R (fun y => sin y * k2)%R); auto. }
    intros eps He. destruct (X eps He) as [del Hd]. exists del. intros h' H1 H2. rewrite !Hh. now apply Hd. }
  set (cp := cos p) in *. set (sp := sin p) in *. set (cq := cos q) in *. set (sq := sin q) in *.
  repeat split.
  - apply (D (a * cq + b * sq) (a * sq - b * cq))%R; [intros y; ring|unfold cp, sp; ring].
  - apply (D (b * cq - a * sq) (a * cq + b * sq))%R; [intros y; ring|unfold cp, sp; ring].
  - apply (D (cp * a - sp * b) (cp * b + sp * a))%R; [intros y; ring|unfold cq, sq; ring].
  - apply (D (cp * b + sp * a) (- (cp * a - sp * b)))%R; [intros y; ring|unfold cq, sq; ring].
Qed.
