From Coq Require Import Reals Lra.
From Coq Require Import String Ascii.
From Verif Require Import Prelude CRing CplxR DaskPredictModel BeamModel BeamSpec BeamProofs BeamProofs2 BeamProofs3 FitterModel FitterSpec FitterProofs FitBeamModel FitBeamSpec FitBeamProofs FitBeamProofs2 FitBeamProofs3.
Open Scope list_scope.
Open Scope R_scope.

Lemma clamp_in n v : (1 <= n)%nat -> 0 <= clamp 0 (INR n - 1) v <= INR n - 1.
Proof. intros N. apply le_INR in N. cbn in N. unfold clamp. split; [apply Rmax_l|]. apply Rmax_lub; [lra|apply Rmin_r]. Qed.
Lemma sampled_le n2 n1 A B w k row col : 0 <= w <= 1 -> (forall i j p, (i < n2)%nat -> (j < n1)%nat -> p = k \/ p = S k -> A p i j <= B p i j) -> sampled n2 n1 A w k row col <= sampled n2 n1 B w k row col.
Proof. intros W H. rewrite <- !sampled_tri. apply (rtri_le n2 n1 row col w k (fun i j p => A p i j) (fun i j p => B p i j) W). intros i j p I J P. now apply H. Qed.
Lemma sampled_const n2 n1 w k row col v : (1 <= n2)%nat -> (1 <= n1)%nat -> 0 <= row <= INR n2 - 1 -> 0 <= col <= INR n1 - 1 -> sampled n2 n1 (fun _ _ _ => v) w k row col = v.
Proof. intros. rewrite <- sampled_tri. now apply rtri_const. Qed.

Lemma bounds_main name paths disk h nband mask freqs bh a b c d : name <> "eidos"%string -> loads disk paths bh a b c d -> usable bh -> mask <> [] -> covers bh h mask ->
  exists out, interpolate_beam name paths disk h nband mask freqs = Ok out /\
  forall lo hi, (forall p i j, (p < bh_naxis3 bh)%nat -> (i < bh_naxis2 bh)%nat -> (j < bh_naxis1 bh)%nat -> lo <= stokes_i a b c d p i j <= hi) ->
  forall s f, (s < List.length mask)%nat -> (f < nband)%nat -> lo <= out s f <= hi.
Proof.
  intros NE L U NM CV. destruct (value_main name paths disk h nband mask freqs bh a b c d NE L U NM CV) as (out & E & V). exists out. split; [exact E|]. intros lo hi B s f SL F.
  destruct (nth_error mask s) as [[i j]|] eqn:NS; [|apply nth_error_None in NS; lia]. destruct (V s i j f NS F) as (sc & w & k & FP & K & VV). cbv zeta in VV. rewrite VV. clear VV.
  destruct U as (_ & _ & _ & N1 & N2 & N3 & _ & _ & D3). pose proof (freq_plane_facts _ _ _ _ _ _ N3 (band_increasing _ _ _ _ D3) FP) as [W _].
  set (x := clamp _ _ _). set (y := clamp _ _ _). assert (X : 0 <= x <= INR (bh_naxis2 bh) - 1) by (apply clamp_in; lia). assert (Y : 0 <= y <= INR (bh_naxis1 bh) - 1) by (apply clamp_in; lia).
  split.
  - rewrite <- (sampled_const (bh_naxis2 bh) (bh_naxis1 bh) w k x y lo) by (assumption || lia). apply sampled_le; [exact W|]. intros i' j' p I J P. apply B; lia.
  - rewrite <- (sampled_const (bh_naxis2 bh) (bh_naxis1 bh) w k x y hi) by (assumption || lia). apply sampled_le; [exact W|]. intros i' j' p I J P. apply B; lia.
Qed.
Lemma sum_only n k (f : nat -> R) : (k < n)%nat -> (forall i, (i < n)%nat -> i <> k -> f i = 0) -> csum (K := RR) n f = f k.
Proof. apply (csum_only RR_laws). Qed.
Lemma centre_main name paths disk h nband mask freqs bh a b c d q : name <> "eidos"%string -> loads disk paths bh a b c d -> usable bh -> mask <> [] -> covers bh h mask ->
  bh_naxis1 bh = (2 * q + 1)%nat -> bh_naxis2 bh = (2 * q + 1)%nat -> bh_crpix1 bh = INR q + 1 -> bh_crpix2 bh = INR q + 1 ->
  (forall p i j, stokes_i a b c d p i j = if (Nat.eqb i q && Nat.eqb j q)%bool then 1 else 0) ->
  exists out, interpolate_beam name paths disk h nband mask freqs = Ok out /\
  forall s i j f, nth_error mask s = Some (i, j) -> coordinate (crpix1 h) (cdelt1 h) j = 0 -> coordinate (crpix2 h) (cdelt2 h) i = 0 -> (f < nband)%nat ->
    out s f = Rsqr ((INR q + 1) / (2 * INR q + 1)) /\ out s f < 1 / 2.
Proof.
  intros NE L U NM CV Q1 Q2 R1 R2 ST. destruct (value_main name paths disk h nband mask freqs bh a b c d NE L U NM CV) as (out & E & V). exists out. split; [exact E|]. intros s i j f NS CJ CI F.
  assert (QP : (1 <= q)%nat) by (destruct U as (_ & _ & _ & N & _); lia). assert (QR : 1 <= INR q) by (apply le_INR in QP; exact QP).
  assert (EQ : out s f = Rsqr ((INR q + 1) / (2 * INR q + 1))).
  { destruct (V s i j f NS F) as (sc & w & k & FP & K & VV). cbv zeta in VV. rewrite VV, CJ, CI, Q1, Q2, R1, R2. clear VV. unfold pixel. rewrite Rmult_0_r.
    replace (0 / bh_cdelt1 bh + (INR q + 1) - 1) with (INR q) by (unfold Rdiv; ring). replace (0 / bh_cdelt2 bh + (INR q + 1) - 1) with (INR q) by (unfold Rdiv; ring).
    assert (NQ : INR (2 * q + 1) = 2 * INR q + 1) by (rewrite plus_INR, mult_INR; cbn; ring). rewrite NQ.
    set (x := INR q * ((2 * INR q + 1 - 1) / (2 * INR q + 1))).
    assert (XE : x = INR q - INR q / (2 * INR q + 1)) by (unfold x; field; lra).
    assert (Z : 0 < INR q / (2 * INR q + 1) < 1). { split; [apply Rdiv_lt_0_compat; lra|]. apply (Rmult_lt_reg_r (2 * INR q + 1)); [lra|]. unfold Rdiv. rewrite Rmult_assoc, Rinv_l by lra. lra. }
    replace (clamp 0 (2 * INR q + 1 - 1) x) with x by (unfold clamp; rewrite Rmin_left by lra; rewrite Rmax_right by lra; reflexivity).
    assert (HX : hat (x - INR q) = (INR q + 1) / (2 * INR q + 1)). { unfold hat. rewrite XE. replace (INR q - INR q / (2 * INR q + 1) - INR q) with (- (INR q / (2 * INR q + 1))) by ring. rewrite Rabs_Ropp, Rabs_right by lra. rewrite Rmax_right by lra. field. lra. }
    unfold sampled. etransitivity; [apply (sum_only _ q); [lia|]|].
    - intros i' I N. apply zero_sum. intros j' J. rewrite !ST. destruct (Nat.eqb_spec i' q); [contradiction|]. cbn [andb]. ring.
    - etransitivity; [apply (sum_only _ q); [lia|]|].
      + intros j' J N. rewrite !ST. destruct (Nat.eqb_spec j' q); [contradiction|]. rewrite andb_false_r. ring.
      + rewrite !ST, !Nat.eqb_refl, HX. cbn [andb]. unfold Rsqr. ring. }
  split; [exact EQ|]. rewrite EQ. assert (H : (INR q + 1) / (2 * INR q + 1) <= 2 / 3). { apply (Rmult_le_reg_r (2 * INR q + 1)); [lra|]. unfold Rdiv at 1. rewrite Rmult_assoc, Rinv_l by lra. lra. }
  assert (P : 0 < (INR q + 1) / (2 * INR q + 1)) by (apply Rdiv_lt_0_compat; lra). unfold Rsqr. nra.
Qed.
Lemma sampled_cols n2 n1 (g : nat -> nat -> R) w k row row' col : (1 <= n2)%nat -> 0 <= row <= INR n2 - 1 -> 0 <= row' <= INR n2 - 1 ->
  sampled n2 n1 (fun p _ j => g p j) w k row col = sampled n2 n1 (fun p _ j => g p j) w k row' col.
Proof.
  intros N R1 R2. enough (E : forall r, 0 <= r <= INR n2 - 1 -> sampled n2 n1 (fun p _ j => g p j) w k r col = csum (K := RR) n1 (fun j => hat (col - INR j) * (w * g k j + (1 - w) * g (S k) j))) by (rewrite !E by assumption; reflexivity).
  intros r RR'. unfold sampled. set (T := csum (K := RR) n1 (fun j => hat (col - INR j) * (w * g k j + (1 - w) * g (S k) j))).
  transitivity (csum (K := RR) n2 (fun i => cmul (c := RR) (hat (r - INR i)) T)).
  - apply (csum_ext (K := RR)). intros i _. unfold T. etransitivity; [|apply (csum_mul_l RR_laws)]. apply (csum_ext (K := RR)). intros j _. cbn [cmul RR]. apply Rmult_assoc.
  - rewrite (csum_mul_r RR_laws), hat_sum by assumption. cbn [cmul RR]. apply Rmult_1_l.
Qed.
Lemma sampled_ext n2 n1 A B w k row col : (forall p i j, A p i j = B p i j) -> sampled n2 n1 A w k row col = sampled n2 n1 B w k row col.
Proof. intros H. unfold sampled. apply (csum_ext (K := RR)). intros i _. apply (csum_ext (K := RR)). intros j _. now rewrite !H. Qed.
Lemma axes_main name paths disk h nband mask freqs bh a b c d g : name <> "eidos"%string -> loads disk paths bh a b c d -> usable bh -> mask <> [] -> covers bh h mask ->
  (forall p i j, stokes_i a b c d p i j = g p j) ->
  exists out, interpolate_beam name paths disk h nband mask freqs = Ok out /\
  forall s s' i j j' f, nth_error mask s = Some (i, j) -> nth_error mask s' = Some (i, j') -> (f < nband)%nat -> out s f = out s' f.
Proof.
  intros NE L U NM CV G. destruct (value_main name paths disk h nband mask freqs bh a b c d NE L U NM CV) as (out & E & V). exists out. split; [exact E|]. intros s s' i j j' f NS NS' F.
  destruct (V s i j f NS F) as (sc & w & k & FP & K & VV). destruct (V s' i j' f NS' F) as (sc' & w' & k' & FP' & K' & VV'). cbv zeta in VV, VV'. rewrite VV, VV'. clear VV VV'.
  destruct U as (_ & _ & _ & N1 & N2 & N3 & _ & _ & D3).
  destruct (freq_plane_unique _ _ _ _ _ _ _ _ _ N3 (band_increasing _ _ _ _ D3) FP FP') as (<- & <- & <-).
  rewrite !(sampled_ext _ _ (stokes_i a b c d) (fun p _ j => g p j)) by exact G. apply sampled_cols; [lia|apply clamp_in; lia|apply clamp_in; lia].
Qed.

(* ---- refusals ---- *)
Lemma refused_beam name paths disk h nband mask freqs :
  (name = "eidos"%string -> interpolate_beam name paths disk h nband mask freqs = Raise NotImplementedError) /\
  (name <> "eidos"%string -> paths = [] -> interpolate_beam name paths disk h nband mask freqs = Raise NameError) /\
  (forall bh a b c d, name <> "eidos"%string -> loads disk paths bh a b c d ->
    ~ degrees (bh_cunit1 bh) \/ ~ degrees (bh_cunit2 bh) \/ bh_ctype3 bh <> "FREQ"%string \/ mask = [] \/ (bh_naxis1 bh < 2 \/ bh_naxis2 bh < 2 \/ bh_naxis3 bh < 2)%nat \/
    (0 < bh_cdelt1 bh /\ 0 < bh_cdelt2 bh /\ ~ covers bh h mask) \/ (bh_cdelt1 bh < 0 /\ (0 < bh_naxis1 bh)%nat) \/ (bh_cdelt2 bh < 0 /\ (0 < bh_naxis2 bh)%nat) ->
    interpolate_beam name paths disk h nband mask freqs = Raise ValueError).
Proof.
  unfold interpolate_beam. split; [intros ->; reflexivity|]. split; [intros N ->; destruct (String.eqb_spec name "eidos"); [contradiction|reflexivity]|].
  intros bh a b c d N L H. rewrite L. destruct (String.eqb_spec name "eidos"); [contradiction|]. cbn [bind beam_amp c1_re c1_im c2_re c2_im l_hdr]. fold (stokes_i a b c d).
  destruct (is_degrees (bh_cunit1 bh)) eqn:U1; [|reflexivity]. destruct (is_degrees (bh_cunit2 bh)) eqn:U2; [|reflexivity]. apply is_degrees_spec in U1, U2. cbn [negb].
  destruct (Nat.eqb_spec (List.length mask) 0) as [|NM]; [reflexivity|]. 
  match goal with |- (if existsb ?p ?l then _ else _) = _ => destruct (existsb p l) eqn:EX; [reflexivity|] end.
  destruct (String.eqb_spec (bh_ctype3 bh) "FREQ") as [CT|]; [|reflexivity]. cbn [negb].
  assert (FIRST : forall g, existsb g (seq 0 (List.length mask)) = false -> g O = false). { intros g E. destruct (g O) eqn:G; [|reflexivity]. assert (existsb g (seq 0 (List.length mask)) = true) by (apply existsb_exists; exists O; split; [apply in_seq; lia|exact G]). congruence. }
  destruct H as [H|[H|[H|[H|[H|[H|[H|H]]]]]]]; try contradiction.
  - subst mask. contradiction.
  - rewrite dde_small by (cbn [b_lw b_mh b_nud]; tauto). reflexivity.
  - exfalso. destruct H as (D1 & D2 & H). apply H. now apply inside_main.
  - exfalso. destruct H as (D & P). apply FIRST in EX. rewrite !orb_false_iff in EX. destruct EX as [[[A _] B] _]. destruct (Rlt_dec _ _) as [|A'] in A; [discriminate|]. destruct (Rlt_dec _ _) as [|B'] in B; [discriminate|].
    apply lt_INR in P. cbn in P. assert (INR (bh_naxis1 bh) * bh_cdelt1 bh < 0) by nra. apply Rnot_lt_le in A', B'. nra.
  - exfalso. destruct H as (D & P). apply FIRST in EX. rewrite !orb_false_iff in EX. destruct EX as [[[_ A] _] B]. destruct (Rlt_dec _ _) as [|A'] in A; [discriminate|]. destruct (Rlt_dec _ _) as [|B'] in B; [discriminate|].
    apply lt_INR in P. cbn in P. assert (INR (bh_naxis2 bh) * bh_cdelt2 bh < 0) by nra. apply Rnot_lt_le in A', B'. nra.
Qed.
