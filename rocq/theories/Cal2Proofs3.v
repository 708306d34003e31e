From Coq Require Import Reals Lra Ring.
From Verif Require Import Prelude PreludeFacts LoopFacts CRing CField CplxR CplxF NumpyModel AvgModel AvgSpec PredictModel PredictSpec PredictProofs CalModel CalSpec CalProofs CalProofs2
  RimeModel RimeSpec Cal2Model Cal2Spec Cal2Proofs2.
Open Scope nat_scope.

(* ---------- np.angle ---------- *)
Lemma unit_sqrt x y : (x * x + y * y = 1)%R -> x <> 0%R -> sqrt (1 + (y / x)²) = (/ Rabs x)%R.
Proof.
  intros H N. replace (1 + (y / x)²)%R with ((/ x)²)%R.
  - rewrite sqrt_Rsqr_abs. now rewrite Rabs_inv.
  - unfold Rsqr. field_simplify_eq; [|exact N]. unfold pow. lra.
Qed.
Lemma angle_unit z : norm2 z = 1%R -> cis (angle z) = z.
Proof.
  destruct z as [x y]. unfold norm2, re, im, angle, cis. cbn [fst snd]. intros H.
  assert (SQ : x <> 0%R -> sqrt (1 + (y / x)²) <> 0%R).
  { intros N. rewrite unit_sqrt by auto. apply Rinv_neq_0_compat. now apply Rabs_no_R0. }
  destruct (Rlt_dec 0 x) as [P|P].
  - rewrite cos_atan, sin_atan, unit_sqrt by lra. rewrite Rabs_right by lra. f_equal; field; lra.
  - destruct (Rlt_dec x 0) as [Q|Q].
    + assert (A : forall s, s = 1%R \/ s = (-1)%R -> cos (atan (y / x) + s * PI) = x /\ sin (atan (y / x) + s * PI) = y).
      { assert (C : cos (atan (y / x)) = (- x)%R /\ sin (atan (y / x)) = (- y)%R).
        { rewrite cos_atan, sin_atan, unit_sqrt by lra. rewrite Rabs_left by lra. split; field; lra. }
        destruct C as [C S]. intros s Hs. rewrite cos_plus, sin_plus, C, S.
        assert (cos (s * PI) = (-1)%R /\ sin (s * PI) = 0%R) as [-> ->].
        { destruct Hs as [-> | ->].
          - rewrite Rmult_1_l. split; [apply cos_PI|apply sin_PI].
          - replace (-1 * PI)%R with (- PI)%R by ring. rewrite cos_neg, sin_neg, cos_PI, sin_PI. split; ring. }
        split; ring. }
      destruct (Rle_dec 0 y).
      * replace PI with (1 * PI)%R by ring. destruct (A 1%R (or_introl eq_refl)) as [-> ->]. reflexivity.
      * replace (atan (y / x) - PI)%R with (atan (y / x) + -1 * PI)%R by ring. destruct (A (-1)%R (or_intror eq_refl)) as [-> ->]. reflexivity.
    + assert (x = 0%R) as -> by lra. assert (Y : (y * y = 1)%R) by lra.
      destruct (Rlt_dec 0 y); [|destruct (Rlt_dec y 0); [|exfalso; assert (y = 0%R) by lra; subst; lra]].
      * rewrite cos_PI2, sin_PI2. f_equal. nra.
      * rewrite cos_neg, sin_neg, cos_PI2, sin_PI2. f_equal. nra.
Qed.

(* ---------- maxima ---------- *)
Lemma rmax_lt n f tol : (0 <= tol)%R -> ((tol < rmax n f)%R <-> exists i, i < n /\ (tol < f i)%R).
Proof.
  intros T. induction n as [|n IH]; cbn [rmax].
  - split; [lra|]. intros (i & Hi & _). lia.
  - unfold Rmax. destruct (Rle_dec (rmax n f) (f n)) as [L|L].
    + split; [intros H; exists n; split; [lia|exact H]|]. intros (i & Hi & H). destruct (Nat.eq_dec i n) as [->|N]; [exact H|].
      assert (tol < rmax n f)%R by (apply IH; exists i; split; [lia|exact H]). lra.
    + rewrite IH. split; intros (i & Hi & H); [exists i; split; [lia|exact H]|].
      destruct (Nat.eq_dec i n) as [->|N]; [|exists i; split; [lia|exact H]].
      assert (tol < rmax n f)%R by lra. apply IH in H0. exact H0.
Qed.
Lemma max_abs_lt nt na nc nd ncorr x tol : (0 <= tol)%R ->
  ((tol < max_abs nt na nc nd ncorr x)%R <-> exists t a f s c, gain_in nt na nc nd ncorr t a f s c /\ (tol < Rabs (x t a f s c 0%nat))%R).
Proof.
  intros T. unfold max_abs, gain_in. rewrite rmax_lt by auto. split.
  - intros (t & Ht & H). apply rmax_lt in H; auto. destruct H as (a & Ha & H). apply rmax_lt in H; auto. destruct H as (f & Hf & H).
    apply rmax_lt in H; auto. destruct H as (s & Hs & H). apply rmax_lt in H; auto. destruct H as (c & Hc & H). exists t, a, f, s, c. repeat split; auto.
  - intros (t & a & f & s & c & (Ht & Ha & Hf & Hs & Hc) & H). exists t. split; auto. apply rmax_lt; auto. exists a. split; auto. apply rmax_lt; auto. exists f. split; auto.
    apply rmax_lt; auto. exists s. split; auto. apply rmax_lt; auto. exists c. auto.
Qed.

(* ---------- one iteration ---------- *)
Section Step.
  Context (n nant ncorr nchan ndir : nat) (tbi : arr Z) (tbc ant1 ant2 : arr nat) (vis : vis_arr RCF) (m : model_arr RCF) (flag : nat -> nat -> arr2 bool) (tmin : Z).
  Context (use : nat -> nat -> bool).
  Notation M := (fun r f s c => m_at m r f s c 0).
  Notation D := (fun r f c => v_at vis r f c 0).
  Hypothesis (Hn : 0 < n) (Hm : is_min n tbi tmin) (Hd : bins_disjoint n tbi tmin tbc).
  Hypothesis Huse : forall r f, use r f = true <-> ~ flagged false (m_corr m) (flag r f).
  Hypothesis (Hv : v_corr vis = ncorr) (Hmc : m_corr m = ncorr) (Hvc : v_chan vis = nchan) (Hmd : m_dir m = ndir).
  (* gains of the right shape *)
  Definition fits (g : gain_arr RCF) : Prop :=
    check_type (j_ndim g) (m_ndim m) VT_model = Ok DIAG_DIAG /\ check_type (j_ndim g) (v_ndim vis) VT_vis = Ok DIAG_DIAG /\ j_tim g = n /\ j_chan g = nchan /\ j_dir g = ndir.
  Notation delta J g := (gn_delta tbi tmin tbc ant1 ant2 ndir use M D J g).
  Notation jhr_of g t := (JHR tbi tmin tbc ant1 ant2 use M g (residuals ant1 ant2 ndir M D g t) t).

  Lemma bin_row_in t k : t < n -> k < tbc t -> in_bin tbi tmin tbc t (bin_row tbi tmin t k).
  Proof. intros Ht Hk. apply (in_bin_rebased n); auto. unfold bin_row. lia. Qed.

  Lemma step_spec g J jhj : fits g ->
    (forall t a f s c, t < n -> f < nchan -> s < ndir -> c < ncorr -> jhj t a f s c 0 = J t a f s c) ->
    exists g' jhr d, gn_step n tbi tbc ant1 ant2 vis flag m jhj g = Ok (g', jhr, d) /\ fits g' /\
      forall t a f s c, t < n -> f < nchan -> s < ndir -> c < ncorr ->
        jhr t a f s c 0 = jhr_of (j_at g) t a f s c /\
        d t a f s c 0 = delta J (j_at g) t a f s c /\
        j_at g' t a f s c 0 = cis (angle (j_at g t a f s c 0) + delta J (j_at g) t a f s c).
  Proof.
    intros (C1 & C2 & F1 & F2 & F3) HJ. unfold gn_step.
    destruct (residual_vis_spec RCF_laws n tbi tbc ant1 ant2 g vis flag m DIAG_DIAG tmin C2 Hn Hm Hd) as (tb & r & E & _ & R1 & R2 & R3 & R4 & RV).
    rewrite E. cbn [bind].
    destruct (jhr_value n tbi tbc ant1 ant2 g m flag tmin use Hn Hm Huse C1 r) as (tb2 & jhr & E2 & _ & JV).
    rewrite E2. cbn [bind]. do 3 eexists. split; [reflexivity|]. split; [unfold fits; cbn; auto|].
    intros t a f s c Ht Hf Hs Hc.
    assert (X : jhr t a f s c 0 = jhr_of (j_at g) t a f s c).
    { rewrite JV by lia. unfold JHR. apply bin_sum_ext. intros k Hk. destruct (use (bin_row tbi tmin t k) f) eqn:U; [|reflexivity].
      set (row := bin_row tbi tmin t k) in *. apply Huse in U.
      assert (Hf' : f < v_chan vis) by lia. destruct (RV row f Hf') as [RV1 _].
      assert (U' : ~ flagged (mode_full DIAG_DIAG) (v_corr vis) (flag row f)) by (rewrite Hv, <- Hmc; exact U).
      specialize (RV1 t Ht (bin_row_in t k Ht Hk) U' c 0). rewrite RV1 by (split; [rewrite Hv; exact Hc|reflexivity]).
      assert (Y : jsub (v_at vis row f) (corrupted DIAG_DIAG g m ant1 ant2 t row f) c 0 = residuals ant1 ant2 ndir M D (j_at g) t row f c).
      { unfold jsub, residuals, corrupted, jsum. rewrite Hmd. f_equal. apply csum_ext. intros s' _. unfold gsandwich, sandwich, seen, jprod, jherm. cbn [RCF fcar]. rc. }
      rewrite Y. reflexivity. }
    split; [exact X|]. cbn [with_gains j_at].
    assert (Z : (/ 2 * (re (jhr t a f s c 0%nat) / jhj t a f s c 0%nat))%R = delta J (j_at g) t a f s c).
    { unfold gn_delta. rewrite X, HJ by auto. reflexivity. }
    split; [etransitivity; [|exact Z]; cbv beta; match goal with |- ?a = ?b => change (@eq R a b) end; ring|]. now rewrite Z.
  Qed.

  (* ---------- the loop ---------- *)
  Lemma loop_spec J jhj tol : (0 <= tol)%R ->
    (forall t a f s c, t < n -> f < nchan -> s < ndir -> c < ncorr -> jhj t a f s c 0 = J t a f s c) ->
    forall fuel eps k g h, fits g ->
    exists N G (g' : gain_arr RCF) h', gn_loop fuel n nant ncorr tbi tbc ant1 ant2 vis flag m tol jhj eps k g h = Ok (g', h', k + N) /\
      N <= fuel /\ G 0 = j_at g /\ j_at g' = G N /\ fits g' /\
      (N = 0 -> h' = h /\ (fuel = 0 \/ ~ (tol < eps)%R)) /\ (0 < N -> (tol < eps)%R) /\
      (0 < N -> exists hr, h' = Some hr /\ forall t a f s c, t < n -> f < nchan -> s < ndir -> c < ncorr -> hr t a f s c 0 = jhr_of (G (N - 1)) t a f s c) /\
      (forall i t a f s c, i < N -> t < n -> f < nchan -> s < ndir -> c < ncorr ->
         G (S i) t a f s c 0 = cis (angle (G i t a f s c 0) + delta J (G i) t a f s c)) /\
      (forall i, S i < N -> exists t a f s c, gain_in n nant nchan ndir ncorr t a f s c /\ (tol < Rabs (delta J (G i) t a f s c))%R) /\
      (0 < N < fuel -> forall t a f s c, gain_in n nant nchan ndir ncorr t a f s c -> (Rabs (delta J (G (N - 1)%nat) t a f s c) <= tol)%R).
  Proof.
    intros HT HJ. induction fuel as [|fuel IH]; intros eps k g h Fg.
    - exists 0, (fun _ => j_at g), g, h. cbn [gn_loop]. rewrite Nat.add_0_r. split; [reflexivity|]. split; [lia|]. split; [reflexivity|]. split; [reflexivity|]. split; [exact Fg|]. split; [auto|]. repeat split; intros; lia.
    - cbn [gn_loop]. destruct (Rlt_dec tol eps) as [T|T].
      + destruct (step_spec g J jhj Fg HJ) as (g1 & jhr & d & E & F1 & V). rewrite E. cbn [bind].
        assert (Fg' := Fg). destruct Fg' as (_ & _ & Q1 & Q2 & Q3). rewrite Q1, Q2, Q3.
        destruct (IH (max_abs n nant nchan ndir ncorr d) (S k) g1 (Some jhr) F1) as (N & G & g' & h' & E' & L & G0 & GN & F' & Z0 & Zp & H1 & St & Co & Sp).
        exists (S N), (fun i => match i with O => j_at g | S i => G i end), g', h'.
        assert (MD : (tol < max_abs n nant nchan ndir ncorr d)%R <-> exists t a f s c, gain_in n nant nchan ndir ncorr t a f s c /\ (tol < Rabs (delta J (j_at g) t a f s c))%R).
        { rewrite max_abs_lt by auto. split; intros (t & a & f & s & c & I & H); exists t, a, f, s, c; (split; [exact I|]); destruct I as (I1 & I2 & I3 & I4 & I5);
            destruct (V t a f s c I1 I3 I4 I5) as (_ & W & _); [rewrite <- W|rewrite W]; exact H. }
        split; [rewrite E'; replace (k + S N) with (S k + N) by lia; reflexivity|]. split; [lia|]. split; [reflexivity|]. split; [exact GN|]. split; [exact F'|].
        split; [lia|]. split; [auto|]. split; [|split; [|split]].
        * intros _. destruct N as [|N].
          -- destruct (Z0 eq_refl) as (-> & _). exists jhr. split; [reflexivity|]. intros t a f s c Ht Hf Hs Hc. cbn [Nat.sub]. apply V; auto.
          -- destruct (H1 ltac:(lia)) as (hr & -> & W). exists hr. split; [reflexivity|]. intros t a f s c Ht Hf Hs Hc. rewrite W by auto. replace (S (S N) - 1) with (S (S N - 1)) by lia. reflexivity.
        * intros [|i] t a f s c Hi Ht Hf Hs Hc; [rewrite G0; apply V; auto|]. apply St; auto. lia.
        * intros [|i] Hi; [|apply Co; lia]. apply MD. apply Zp. lia.
        * intros [_ Hlt] t a f s c I. destruct N as [|N].
          -- cbn [Nat.sub]. destruct (Z0 eq_refl) as (_ & [Hf|Hf]); [lia|]. apply Rnot_lt_le. intros C. apply Hf. apply MD. exists t, a, f, s, c. auto.
          -- replace (S (S N) - 1) with (S (S N - 1)) by lia. apply Sp; [lia|exact I].
      + exists 0, (fun _ => j_at g), g, h. rewrite Nat.add_0_r. split; [reflexivity|]. split; [lia|]. split; [reflexivity|]. split; [reflexivity|]. split; [exact Fg|]. split; [auto|]. repeat split; intros; lia.
  Qed.
End Step.

(* ---------- rebased time bins ---------- *)
Lemma bin_sum_rebase {K : cops} tbi tmin tbc t (f : nat -> K) : bin_sum (fun t => (tbi t - tmin)%Z) 0 tbc t f = bin_sum tbi tmin tbc t f.
Proof. unfold bin_sum, bin_row. apply csum_ext. intros k _. now rewrite Z.sub_0_r. Qed.

Section Main.
  Context (n nant ncorr nchan ndir : nat) (tbi : arr Z) (tbc ant1 ant2 : arr nat) (g : gain_arr RCF) (vis : vis_arr RCF) (m : model_arr RCF) (flag : nat -> nat -> arr2 bool)
          (weight : arr3 R) (tmin : Z) (use : nat -> nat -> bool).
  Notation M := (fun r f s c => cmul (m_at m r f s c 0 : RC) (ofR (sqrt (weight r f c)))).
  Notation D := (fun r f c => cmul (v_at vis r f c 0 : RC) (ofR (sqrt (weight r f c)))).
  Hypothesis (Hn : 0 < n) (Hm : is_min n tbi tmin) (Hd : bins_disjoint n tbi tmin tbc).
  Hypothesis Huse : forall r f, use r f = true <-> ~ flagged false ncorr (flag r f).
  Hypothesis (Hv : v_corr vis = ncorr) (Hmc : m_corr m = ncorr) (Hvc : v_chan vis = nchan) (Hmd : m_dir m = ndir).
  Hypothesis (C1 : check_type (j_ndim g) (m_ndim m) VT_model = Ok DIAG_DIAG) (C2 : check_type (j_ndim g) (v_ndim vis) VT_vis = Ok DIAG_DIAG).
  Hypothesis (F1 : j_tim g = n) (F2 : j_chan g = nchan) (F3 : j_dir g = ndir).
  Notation J := (JHJ tbi tmin tbc ant1 ant2 use M (j_at g)).
  Notation delta G := (gn_delta tbi tmin tbc ant1 ant2 ndir use M D J G).

  Theorem gn_main tol maxiter : (0 <= tol)%R ->
    ((1 <= tol)%R \/ maxiter = 0 -> snd (gauss_newton n nant ncorr tbi tbc ant1 ant2 g vis flag m weight tol maxiter) = Raise NameError) /\
    ((tol < 1)%R -> 0 < maxiter -> exists g' jhj jhr k G,
      snd (gauss_newton n nant ncorr tbi tbc ant1 ant2 g vis flag m weight tol maxiter) = Ok (g', jhj, jhr, k) /\
      1 <= k <= maxiter /\ G 0 = j_at g /\ j_at g' = G k /\
      (forall t a f s c, t < n -> f < nchan -> s < ndir -> c < ncorr ->
         jhj t a f s c 0 = J t a f s c /\
         jhr t a f s c 0 = JHR tbi tmin tbc ant1 ant2 use M (G (k - 1)) (residuals ant1 ant2 ndir M D (G (k - 1)) t) t a f s c /\
         forall i, i < k -> G (S i) t a f s c 0 = cis (angle (G i t a f s c 0) + delta (G i) t a f s c)) /\
      (forall i, S i < k -> exists t a f s c, gain_in n nant nchan ndir ncorr t a f s c /\ (tol < Rabs (delta (G i) t a f s c))%R) /\
      (k < maxiter -> forall t a f s c, gain_in n nant nchan ndir ncorr t a f s c -> (Rabs (delta (G (k - 1)%nat) t a f s c) <= tol)%R)).
  Proof.
    intros HT. unfold gauss_newton. cbn [snd]. change (v_ndim (whiten_vis weight vis)) with (v_ndim vis). rewrite C2. cbn [bind].
    set (W := whiten_vis weight vis). set (WM := whiten_model weight m).
    assert (Huse' : forall r f, use r f = true <-> ~ flagged false (m_corr WM) (flag r f)) by (intros r f; change (m_corr WM) with (m_corr m); rewrite Hmc; apply Huse).
    assert (EJ : compute_jhj n tbi tbc ant1 ant2 g WM flag = Ok (fun t => (tbi t - tmin)%Z, snd (match compute_jhj n tbi tbc ant1 ant2 g WM flag with Ok x => x | Raise _ => (tbi, fun _ _ _ _ _ _ => 0%R) end))).
    { unfold compute_jhj. change (m_ndim WM) with (m_ndim m). rewrite C1. cbn [bind]. destruct (Nat.eqb_spec n 0); [lia|].
      rewrite (is_min_unique n tbi (zmin n tbi) tmin); [reflexivity|now apply zmin_is_min|exact Hm]. }
    destruct (jhj_value n tbi tbc ant1 ant2 g WM flag tmin use Hn Hm Huse' C1) as (tb & jhj & E & _ & JV).
    rewrite E in EJ. cbn [snd] in EJ. injection EJ as ->. rewrite E. cbn [bind].
    set (tb := fun t => (tbi t - tmin)%Z) in *.
    assert (Hm' : is_min n tb 0%Z).
    { destruct Hm as [[r [Hr Er]] Hm2]. split; [exists r; split; [exact Hr|]; unfold tb; lia|]. intros t Ht. unfold tb. specialize (Hm2 t Ht). lia. }
    assert (Hb : forall t r, in_bin tb 0 tbc t r <-> in_bin tbi tmin tbc t r) by (intros t r; unfold in_bin, tb; lia).
    assert (Hd' : bins_disjoint n tb 0%Z tbc) by (intros t t' r H1 H2 H3 H4; apply (Hd t t' r); auto; now apply Hb).
    destruct (loop_spec n nant ncorr nchan ndir tb tbc ant1 ant2 W WM flag 0%Z use Hn Hm' Hd' Huse' Hv Hmc Hvc Hmd J jhj tol HT) with (fuel := maxiter) (eps := 1%R) (k := 0) (g := g) (h := @None (garr RCF))
      as (N & G & g' & h' & E' & L & G0 & GN & F' & Z0 & Zp & H1 & St & Co & Sp).
    { intros t a f s c Ht Hf Hs Hc. rewrite JV by lia. reflexivity. }
    { split; [exact C1|]. split; [exact C2|]. auto. }
    rewrite E'. cbn [bind].
    assert (RJ : forall G t a f s c, gn_delta tb 0 tbc ant1 ant2 ndir use (fun r f s c => m_at WM r f s c 0) (fun r f c => v_at W r f c 0) J G t a f s c = delta G t a f s c).
    { intros. unfold gn_delta. do 3 f_equal. unfold JHR, tb. rewrite bin_sum_rebase. reflexivity. }
    split.
    - intros H. destruct N as [|N]; [destruct (Z0 eq_refl) as (-> & _); reflexivity|]. exfalso. specialize (Zp ltac:(lia)). destruct H as [H|H]; [lra|lia].
    - intros T1 Mx. destruct N as [|N]; [destruct (Z0 eq_refl) as (_ & [X|X]); [lia|lra]|].
      destruct (H1 ltac:(lia)) as (hr & -> & HR). exists g', jhj, hr, (S N), G. split; [reflexivity|]. split; [lia|]. split; [exact G0|]. split; [exact GN|].
      split; [|split].
      + intros t a f s c Ht Hf Hs Hc. split; [rewrite JV by lia; reflexivity|]. split.
        * rewrite HR by auto. unfold JHR, tb. rewrite bin_sum_rebase. reflexivity.
        * intros i Hi. rewrite St by auto. now rewrite RJ.
      + intros i Hi. destruct (Co i Hi) as (t & a & f & s & c & I & X). exists t, a, f, s, c. split; [exact I|]. now rewrite <- RJ.
      + intros Hk t a f s c I. rewrite <- RJ. apply Sp; [lia|exact I].
  Qed.

  (* every gain returned is a pure phase *)
  Theorem gn_unit tol maxiter g' jhj jhr k : (0 <= tol)%R ->
    snd (gauss_newton n nant ncorr tbi tbc ant1 ant2 g vis flag m weight tol maxiter) = Ok (g', jhj, jhr, k) ->
    forall t a f s c, t < n -> f < nchan -> s < ndir -> c < ncorr -> norm2 (j_at g' t a f s c 0) = 1%R.
  Proof.
    intros HT E t a f s c Ht Hf Hs Hc. destruct (gn_main tol maxiter HT) as [A B].
    destruct (Rle_dec 1 tol) as [X|X]; [rewrite A in E by auto; discriminate|]. destruct (Nat.eq_dec maxiter 0) as [Y|Y]; [rewrite A in E by auto; discriminate|].
    destruct (B ltac:(lra) ltac:(lia)) as (g2 & j2 & h2 & k2 & G & E2 & K & G0 & GK & V & _). rewrite E in E2. injection E2 as <- <- <- <-.
    rewrite GK. destruct k as [|k]; [lia|]. destruct (V t a f s c Ht Hf Hs Hc) as (_ & _ & S). rewrite (S k) by lia. apply cis_norm2.
  Qed.

  (* exact gains are a fixed point *)
  Theorem gn_fixed tol maxiter : (0 <= tol < 1)%R -> 0 < maxiter ->
    (forall t a f s c, t < n -> f < nchan -> s < ndir -> c < ncorr -> norm2 (j_at g t a f s c 0) = 1%R) ->
    (forall t r f c, t < n -> in_bin tbi tmin tbc t r -> f < nchan -> c < ncorr -> use r f = true -> residuals ant1 ant2 ndir M D (j_at g) t r f c = (c0 : RC)) ->
    exists g' jhj jhr, snd (gauss_newton n nant ncorr tbi tbc ant1 ant2 g vis flag m weight tol maxiter) = Ok (g', jhj, jhr, 1) /\
      forall t a f s c, t < n -> f < nchan -> s < ndir -> c < ncorr ->
        j_at g' t a f s c 0 = j_at g t a f s c 0 /\ jhr t a f s c 0 = (c0 : RC).
  Proof.
    intros HT Mx HU HR. destruct (gn_main tol maxiter (proj1 HT)) as [_ B]. destruct (B (proj2 HT) Mx) as (g' & jhj & jhr & k & G & E & K & G0 & GK & V & Co & Sp).
    assert (Z : forall t a f s c, t < n -> f < nchan -> s < ndir -> c < ncorr -> JHR tbi tmin tbc ant1 ant2 use M (G 0) (residuals ant1 ant2 ndir M D (G 0) t) t a f s c = (c0 : RC)).
    { intros t a f s c Ht Hf Hs Hc. rewrite G0. unfold JHR. transitivity (bin_sum (K := RC) tbi tmin tbc t (fun _ => c0)); [|apply (csum_0 RC_laws)].
      apply bin_sum_ext. intros kk Hk. destruct (use _ f) eqn:U; [|reflexivity].
      rewrite (HR t _ f c Ht); auto; [|apply (in_bin_rebased n); auto; unfold bin_row; lia].
      destruct (Nat.eqb _ a), (Nat.eqb _ a); cbn; f_equal; ring. }
    assert (DZ : forall t a f s c, t < n -> f < nchan -> s < ndir -> c < ncorr -> delta (G 0) t a f s c = 0%R).
    { intros. unfold gn_delta. rewrite Z by auto. cbn. unfold Rdiv. ring. }
    assert (k = 1).
    { destruct (Nat.eq_dec k 1) as [|N]; auto. exfalso. destruct (Co 0 ltac:(lia)) as (t & a & f & s & c & (I1 & I2 & I3 & I4 & I5) & X). rewrite DZ, Rabs_R0 in X by auto. lra. }
    subst k. exists g', jhj, jhr. split; [exact E|]. intros t a f s c Ht Hf Hs Hc. destruct (V t a f s c Ht Hf Hs Hc) as (_ & VH & S).
    cbn [Nat.sub] in VH. split; [|rewrite VH; now apply Z]. rewrite GK, (S 0) by lia. rewrite DZ, Rplus_0_r, G0 by auto. apply angle_unit. now apply HU.
  Qed.
End Main.

(* ---------- a common phase ---------- *)
Lemma seen_phase ant1 ant2 M (G G' : garr RC) (al : nat -> nat -> nat -> nat -> R) t r f s c :
  (forall a, G' t a f s c 0 = cmul (cis (al t f s c)) (G t a f s c 0)) -> seen ant1 ant2 M G' t r f s c = seen ant1 ant2 M G t r f s c.
Proof.
  intros H. unfold seen. rewrite !H. set (x := G t (ant1 r) f s c 0). set (y := G t (ant2 r) f s c 0). set (z := M r f s c). clearbody x y z.
  assert (U : cmul (cis (al t f s c)) (cconj (cis (al t f s c))) = (c1 : RC)).
  { set (u := cis _). assert (N : norm2 u = 1%R) by apply cis_norm2. clearbody u. destruct u as [p q]. unfold norm2, re, im in N. cbn [fst snd] in N. cbn. f_equal; lra. }
  transitivity (cmul (cmul (cis (al t f s c)) (cconj (cis (al t f s c)))) (cmul (cmul x z) (cconj y))).
  - set (u := cis (al t f s c)). clearbody u. rc.
  - rewrite U. rc.
Qed.
Section Cov.
  Context (n nant ncorr nchan ndir : nat) (tbi : arr Z) (tbc ant1 ant2 : arr nat) (g g2 : gain_arr RCF) (vis : vis_arr RCF) (m : model_arr RCF) (flag : nat -> nat -> arr2 bool)
          (weight : arr3 R) (tmin : Z) (use : nat -> nat -> bool) (al : nat -> nat -> nat -> nat -> R).
  Notation M := (fun r f s c => cmul (m_at m r f s c 0 : RC) (ofR (sqrt (weight r f c)))).
  Notation D := (fun r f c => cmul (v_at vis r f c 0 : RC) (ofR (sqrt (weight r f c)))).
  Hypothesis (Hn : 0 < n) (Hm : is_min n tbi tmin) (Hd : bins_disjoint n tbi tmin tbc).
  Hypothesis Huse : forall r f, use r f = true <-> ~ flagged false ncorr (flag r f).
  Hypothesis (Hv : v_corr vis = ncorr) (Hmc : m_corr m = ncorr) (Hvc : v_chan vis = nchan) (Hmd : m_dir m = ndir).
  Hypothesis (C1 : check_type (j_ndim g) (m_ndim m) VT_model = Ok DIAG_DIAG) (C2 : check_type (j_ndim g) (v_ndim vis) VT_vis = Ok DIAG_DIAG).
  Hypothesis (F1 : j_tim g = n) (F2 : j_chan g = nchan) (F3 : j_dir g = ndir).
  Hypothesis (S0 : j_ndim g2 = j_ndim g) (S1 : j_tim g2 = n) (S2 : j_chan g2 = nchan) (S3 : j_dir g2 = ndir).
  Hypothesis HU : forall t a f s c, t < n -> f < nchan -> s < ndir -> c < ncorr -> norm2 (j_at g t a f s c 0) = 1%R.
  Hypothesis HG : forall t a f s c, t < n -> f < nchan -> s < ndir -> c < ncorr -> j_at g2 t a f s c 0 = cmul (cis (al t f s c)) (j_at g t a f s c 0 : RC).
  Definition rel (G G' : garr RC) : Prop := forall t a f s c, t < n -> f < nchan -> s < ndir -> c < ncorr ->
    norm2 (G t a f s c 0) = 1%R /\ G' t a f s c 0 = cmul (cis (al t f s c)) (G t a f s c 0).
  Lemma rel_seen G G' t r f s c : rel G G' -> t < n -> f < nchan -> s < ndir -> c < ncorr -> seen ant1 ant2 M G' t r f s c = seen ant1 ant2 M G t r f s c.
  Proof. intros H Ht Hf Hs Hc. apply (seen_phase _ _ _ _ _ al). intros a. now apply H. Qed.
  Lemma rel_JHJ G G' t a f s c : rel G G' -> t < n -> f < nchan -> s < ndir -> c < ncorr ->
    JHJ tbi tmin tbc ant1 ant2 use M G' t a f s c = JHJ tbi tmin tbc ant1 ant2 use M G t a f s c.
  Proof. intros H Ht Hf Hs Hc. unfold JHJ. apply (bin_sum_ext (K := RR)). intros k Hk. now rewrite (rel_seen G G'). Qed.
  Lemma rel_JHR G G' t a f s c : rel G G' -> t < n -> f < nchan -> s < ndir -> c < ncorr ->
    JHR tbi tmin tbc ant1 ant2 use M G' (residuals ant1 ant2 ndir M D G' t) t a f s c = JHR tbi tmin tbc ant1 ant2 use M G (residuals ant1 ant2 ndir M D G t) t a f s c.
  Proof.
    intros H Ht Hf Hs Hc. unfold JHR. apply bin_sum_ext. intros k Hk. rewrite (rel_seen G G') by auto.
    assert (E : forall r, residuals ant1 ant2 ndir M D G' t r f c = residuals ant1 ant2 ndir M D G t r f c).
    { intros r. unfold residuals. f_equal. apply csum_ext. intros s' Hs'. now apply rel_seen. }
    now rewrite E.
  Qed.
  Lemma unit_mul (u z : RC) : norm2 u = 1%R -> norm2 z = 1%R -> norm2 (cmul u z) = 1%R.
  Proof. destruct u as [a b], z as [x y]. unfold norm2, re, im. cbn. intros H1 H2. nra. Qed.
  Theorem gn_phase tol maxiter : (0 <= tol < 1)%R -> 0 < maxiter ->
    exists r jhj jhr r2 jhj2 jhr2 k,
      snd (gauss_newton n nant ncorr tbi tbc ant1 ant2 g vis flag m weight tol maxiter) = Ok (r, jhj, jhr, k) /\
      snd (gauss_newton n nant ncorr tbi tbc ant1 ant2 g2 vis flag m weight tol maxiter) = Ok (r2, jhj2, jhr2, k) /\
      forall t a f s c, t < n -> f < nchan -> s < ndir -> c < ncorr ->
        j_at r2 t a f s c 0 = cmul (cis (al t f s c)) (j_at r t a f s c 0 : RC) /\ jhj2 t a f s c 0 = jhj t a f s c 0 /\ jhr2 t a f s c 0 = jhr t a f s c 0.
  Proof.
    intros HT Mx.
    destruct (gn_main n nant ncorr nchan ndir tbi tbc ant1 ant2 g vis m flag weight tmin use Hn Hm Hd Huse Hv Hmc Hvc Hmd C1 C2 F1 F2 F3 tol maxiter (proj1 HT)) as [_ A].
    destruct (A (proj2 HT) Mx) as (r & jhj & jhr & k & G & E & K & G0 & GK & V & Co & Sp). clear A.
    rewrite <- S0 in C1, C2.
    destruct (gn_main n nant ncorr nchan ndir tbi tbc ant1 ant2 g2 vis m flag weight tmin use Hn Hm Hd Huse Hv Hmc Hvc Hmd C1 C2 S1 S2 S3 tol maxiter (proj1 HT)) as [_ A].
    destruct (A (proj2 HT) Mx) as (r2 & jhj2 & jhr2 & k2 & G2 & E2 & K2 & G20 & GK2 & V2 & Co2 & Sp2). clear A.
    assert (R0 : rel (j_at g) (j_at g2)) by (intros t a f s c Ht Hf Hs Hc; split; [now apply HU|now apply HG]).
    assert (DL : forall i, rel (G i) (G2 i) -> forall t a f s c, t < n -> f < nchan -> s < ndir -> c < ncorr ->
      gn_delta tbi tmin tbc ant1 ant2 ndir use M D (JHJ tbi tmin tbc ant1 ant2 use M (j_at g2)) (G2 i) t a f s c =
      gn_delta tbi tmin tbc ant1 ant2 ndir use M D (JHJ tbi tmin tbc ant1 ant2 use M (j_at g)) (G i) t a f s c).
    { intros i Ri t a f s c Ht Hf Hs Hc. unfold gn_delta. rewrite (rel_JHR (G i) (G2 i)), (rel_JHJ (j_at g) (j_at g2)) by auto. reflexivity. }
    assert (RI : forall i, i <= k -> i <= k2 -> rel (G i) (G2 i)).
    { induction i as [|i IH]; intros H1 H2; [rewrite G0, G20; exact R0|]. assert (Ri := IH ltac:(lia) ltac:(lia)).
      intros t a f s c Ht Hf Hs Hc. destruct (V t a f s c Ht Hf Hs Hc) as (_ & _ & W). destruct (V2 t a f s c Ht Hf Hs Hc) as (_ & _ & W2).
      rewrite W, W2 by lia. rewrite DL by auto. split; [apply cis_norm2|]. destruct (Ri t a f s c Ht Hf Hs Hc) as [N E'].
      rewrite !cis_add. rewrite (angle_unit (G i t a f s c 0)) by exact N. rewrite (angle_unit (G2 i t a f s c 0)) by (rewrite E'; apply unit_mul; [apply cis_norm2|exact N]).
      rewrite E'. set (u := cis (al t f s c)). set (w := cis (gn_delta _ _ _ _ _ _ _ _ _ _ _ _ _ _ _ _)). clearbody u w. generalize (G i t a f s c 0). intros z. rc. }
    assert (KK : k2 = k).
    { destruct (lt_eq_lt_dec k k2) as [[L|L]|L]; [exfalso|congruence|exfalso].
      - destruct (Co2 (k - 1) ltac:(lia)) as (t & a & f & s & c & I & X). assert (I' := I). destruct I' as (I1 & I2 & I3 & I4 & I5).
        rewrite DL in X by (auto; apply RI; lia). specialize (Sp ltac:(lia) t a f s c I). lra.
      - destruct (Co (k2 - 1) ltac:(lia)) as (t & a & f & s & c & I & X). assert (I' := I). destruct I' as (I1 & I2 & I3 & I4 & I5).
        specialize (Sp2 ltac:(lia) t a f s c I). rewrite DL in Sp2 by (auto; apply RI; lia). lra. }
    subst k2. exists r, jhj, jhr, r2, jhj2, jhr2, k. split; [exact E|]. split; [exact E2|]. intros t a f s c Ht Hf Hs Hc.
    rewrite GK, GK2. destruct (V t a f s c Ht Hf Hs Hc) as (VJ & VR & _). destruct (V2 t a f s c Ht Hf Hs Hc) as (VJ2 & VR2 & _).
    split; [apply (RI k ltac:(lia) ltac:(lia)); auto|]. rewrite VJ, VJ2, VR, VR2. split; [now apply rel_JHJ|]. apply rel_JHR; auto. apply RI; lia.
  Qed.
End Cov.

(* ---------- other modes ---------- *)
Lemma gn_modes n nant ncorr tbi tbc ant1 ant2 (g : gain_arr RCF) vis flag m weight tol maxiter mode :
  check_type (j_ndim g) (v_ndim vis) VT_vis = Ok mode -> mode <> DIAG_DIAG ->
  snd (gauss_newton n nant ncorr tbi tbc ant1 ant2 g vis flag m weight tol maxiter) = Raise NotImplementedError.
Proof. intros H N. unfold gauss_newton. cbn [snd]. change (v_ndim (whiten_vis weight vis)) with (v_ndim vis). rewrite H. cbn [bind]. destruct mode; [reflexivity| |reflexivity] || destruct mode; try reflexivity; contradiction. Qed.
Lemma jj_modes n tbi tbc ant1 ant2 (g : gain_arr RCF) (res : vis_arr RCF) m flag mode :
  check_type (j_ndim g) (v_ndim res) VT_vis = Ok mode -> mode <> DIAG_DIAG ->
  compute_jhj_and_jhr n tbi tbc ant1 ant2 g res m flag = Raise NotImplementedError.
Proof. intros H N. unfold compute_jhj_and_jhr. rewrite H. cbn [bind]. destruct mode; try reflexivity; contradiction. Qed.

(* ---------- dask ---------- *)
Section Dask.
  Context (n : nat) (tbi : arr Z) (tbc ant1 ant2 : arr nat) (g : gain_arr RCF) (m : model_arr RCF) (flag : nat -> nat -> arr2 bool) (tmin : Z) (ch : cal_chunks).
  Hypothesis (Hn : 0 < n) (Hm : is_min n tbi tmin) (Hd : bins_disjoint n tbi tmin tbc).
  Hypothesis (C1 : check_type (j_ndim g) (m_ndim m) VT_model = Ok DIAG_DIAG).
  Hypothesis (F1 : j_tim g = n) (Hch : list_sum (cc_chan ch) = j_chan g) (Hdir : hd 0 (cc_jdir ch) = j_dir g).
  Let use r f := negb (any_flag DIAG_DIAG (m_corr m) (flag r f)).
  Lemma use_spec r f : use r f = true <-> ~ flagged false (m_corr m) (flag r f).
  Proof.
    unfold use. rewrite negb_true_iff. split.
    - intros E Fl. apply (any_flag_spec DIAG_DIAG) in Fl. congruence.
    - intros N. destruct any_flag eqn:E; auto. apply (any_flag_spec DIAG_DIAG) in E. contradiction.
  Qed.
  Lemma blk_sum {K : cops} rb t (x y : nat -> K) : chunk_aligned n tbi tmin tbc ch rb -> t < nth rb (cc_time ch) 0 ->
    (forall r, x r = y (off (cc_row ch) rb + r)) ->
    bin_sum (shift (off (cc_time ch) rb) tbi) (tmin + Z.of_nat (off (cc_row ch) rb)) (shift (off (cc_time ch) rb) tbc) t x = bin_sum tbi tmin tbc (off (cc_time ch) rb + t) y.
  Proof.
    intros A Ht H. destruct (al_min _ _ _ _ _ _ _ _ A) as [_ Mn]. specialize (Mn t Ht). unfold shift in Mn. unfold bin_sum, shift. apply csum_ext. intros k Hk. rewrite H. f_equal.
    unfold bin_row. unfold shift. lia.
  Qed.
  Theorem dask_jhj_spec : exists tbi' whole blocks, compute_jhj n tbi tbc ant1 ant2 g m flag = Ok (tbi', whole) /\
    dask_jhj ch tbi tbc ant1 ant2 g m flag = Ok (cc_row ch, blocks) /\
    forall rb, chunk_aligned n tbi tmin tbc ch rb -> forall cb, exists btbi b, blocks rb cb = Ok (btbi, b) /\
      forall t a f s c, t < nth rb (cc_time ch) 0 -> f < nth cb (cc_chan ch) 0 -> s < j_dir g ->
        b t a f s c 0 = whole (off (cc_time ch) rb + t) a (off (cc_chan ch) cb + f) s c 0.
  Proof.
    destruct (jhj_value n tbi tbc ant1 ant2 g m flag tmin use Hn Hm use_spec C1) as (tbi' & whole & E & _ & V).
    exists tbi', whole. unfold dask_jhj. rewrite C1. cbn [bind]. eexists. split; [exact E|]. split; [reflexivity|]. intros rb A cb. cbn beta.
    destruct (jhj_value (nth rb (cc_time ch) 0) (shift (off (cc_time ch) rb) tbi) (shift (off (cc_time ch) rb) tbc) (shift (off (cc_row ch) rb) ant1) (shift (off (cc_row ch) rb) ant2)
      (blk_gain ch rb cb g) (blk_model ch rb cb m) (blk_flag ch rb cb flag) (tmin + Z.of_nat (off (cc_row ch) rb))%Z
      (fun r f => use (off (cc_row ch) rb + r) (off (cc_chan ch) cb + f)) (al_pos _ _ _ _ _ _ _ _ A) (al_min _ _ _ _ _ _ _ _ A) (fun r f => use_spec _ _) C1) as (btbi & b & Eb & _ & Vb).
    exists btbi, b. split; [exact Eb|]. intros t a f s c Ht Hf Hs. pose proof (al_tim _ _ _ _ _ _ _ _ A) as Tm.
    rewrite Vb; [|exact Ht|exact Hf|cbn [blk_gain j_dir]; rewrite Hdir; exact Hs]. rewrite V; [|lia| |exact Hs].
    2:{ rewrite <- Hch. now apply off_nth_le. }
    unfold JHJ. apply (blk_sum (K := RR)); auto.
  Qed.
  Theorem dask_jhr_spec (res : vis_arr RCF) : check_type (j_ndim g) (v_ndim res) VT_vis = Ok DIAG_DIAG ->
    exists tbi' whole blocks, compute_jhr n tbi tbc ant1 ant2 g res m flag = Ok (tbi', whole) /\
    dask_jhr ch tbi tbc ant1 ant2 g res m flag = Ok (cc_row ch, blocks) /\
    forall rb, chunk_aligned n tbi tmin tbc ch rb -> forall cb, exists btbi b, blocks rb cb = Ok (btbi, b) /\
      forall t a f s c, t < nth rb (cc_time ch) 0 -> f < nth cb (cc_chan ch) 0 -> s < j_dir g ->
        b t a f s c 0 = whole (off (cc_time ch) rb + t) a (off (cc_chan ch) cb + f) s c 0.
  Proof.
    intros C2. destruct (jhr_value n tbi tbc ant1 ant2 g m flag tmin use Hn Hm use_spec C1 res) as (tbi' & whole & E & _ & V).
    exists tbi', whole. unfold dask_jhr. rewrite C2. cbn [bind]. eexists. split; [exact E|]. split; [reflexivity|]. intros rb A cb. cbn beta.
    destruct (jhr_value (nth rb (cc_time ch) 0) (shift (off (cc_time ch) rb) tbi) (shift (off (cc_time ch) rb) tbc) (shift (off (cc_row ch) rb) ant1) (shift (off (cc_row ch) rb) ant2)
      (blk_gain ch rb cb g) (blk_model ch rb cb m) (blk_flag ch rb cb flag) (tmin + Z.of_nat (off (cc_row ch) rb))%Z
      (fun r f => use (off (cc_row ch) rb + r) (off (cc_chan ch) cb + f)) (al_pos _ _ _ _ _ _ _ _ A) (al_min _ _ _ _ _ _ _ _ A) (fun r f => use_spec _ _) C1 (blk_v ch rb cb res)) as (btbi & b & Eb & _ & Vb).
    exists btbi, b. split; [exact Eb|]. intros t a f s c Ht Hf Hs. pose proof (al_tim _ _ _ _ _ _ _ _ A) as Tm.
    rewrite Vb; [|exact Ht|exact Hf|cbn [blk_gain j_dir]; rewrite Hdir; exact Hs]. rewrite V; [|lia| |exact Hs].
    2:{ rewrite <- Hch. now apply off_nth_le. }
    unfold JHR. apply blk_sum; auto.
  Qed.
End Dask.
