From Coq Require Import Reals Lra.
From Coq Require Import String Ascii.
From Verif Require Import Prelude CRing CplxR DaskPredictModel BeamModel BeamSpec BeamProofs BeamProofs2 BeamProofs3 FitterModel FitterSpec FitterProofs FitBeamModel FitBeamSpec FitBeamProofs.
Open Scope list_scope.
Open Scope R_scope.

(* ---- interpolation of a real cube without negative values ---- *)
Lemma cabs_ofR x : 0 <= x -> cabs (ofR x) = x.
Proof. intros H. unfold cabs, norm2, ofR. cbn [fst snd re im]. replace (x * x + 0 * 0) with (x * x) by ring. now apply sqrt_square. Qed.
Lemma csum_ofR n (f : nat -> R) : csum (K := RC) n (fun i => ofR (f i)) = ofR (csum (K := RR) n f).
Proof. induction n as [|n IH]; [reflexivity|]. cbn [csum]. rewrite IH. unfold ofR. cbn [cadd RC RR fst snd]. f_equal. apply Rplus_0_l. Qed.
Lemma tri_ofR lw mh x y w k (B : nat -> nat -> nat -> R) : tri (K := RC) (fun r z => cmul (ofR r) z) lw mh x y w k (fun i j p => ofR (B i j p)) = ofR (tri (K := RR) Rmult lw mh x y w k B).
Proof.
  unfold tri. etransitivity; [|apply csum_ofR]. apply (csum_ext (K := RC)). intros i _. etransitivity; [|apply csum_ofR]. apply (csum_ext (K := RC)). intros j _.
  unfold ofR. cbn [cadd cmul RC RR fst snd]. f_equal; cbn; ring.
Qed.
Lemma zero_sum n (f : nat -> R) : (forall i, (i < n)%nat -> f i = 0) -> csum (K := RR) n f = 0.
Proof. intros H. etransitivity; [apply (csum_ext (K := RR)); exact H|]. apply (csum_0 RR_laws). Qed.
Lemma tri_pos lw mh x y w k (B : nat -> nat -> nat -> R) : 0 <= w <= 1 -> (forall i j p, 0 <= B i j p) -> 0 <= tri (K := RR) Rmult lw mh x y w k B.
Proof.
  intros W H. assert (E : tri (K := RR) Rmult lw mh x y w k (fun _ _ _ => 0) = 0).
  { unfold tri. apply zero_sum. intros i _. apply zero_sum. intros j _. cbn [cadd RR c0]. change (@eq R (hat (x - INR i) * hat (y - INR j) * (w * 0 + (1 - w) * 0)) 0). ring. }
  rewrite <- E. apply (rtri_le lw mh x y w k (fun _ _ _ => 0) B W). intros. apply H.
Qed.
Lemma with_amp_real lw mh x y w k (B : nat -> nat -> nat -> R) : 0 <= w <= 1 -> (forall i j p, 0 <= B i j p) ->
  with_amp (tri (K := RR) Rmult lw mh x y w k (fun i j p => cabs (ofR (B i j p)))) (tri (K := RC) (fun r z => cmul (ofR r) z) lw mh x y w k (fun i j p => ofR (B i j p))) = ofR (tri (K := RR) Rmult lw mh x y w k B).
Proof.
  intros W H. rewrite tri_ofR. replace (tri (K := RR) Rmult lw mh x y w k (fun i j p => cabs (ofR (B i j p)))) with (cabs (ofR (tri (K := RR) Rmult lw mh x y w k B))); [apply with_amp_self|].
  rewrite cabs_ofR by now apply tri_pos. unfold tri. apply (csum_ext (K := RR)). intros i _. apply (csum_ext (K := RR)). intros j _. now rewrite !cabs_ofR by apply H.
Qed.
Lemma stokes_pos a b c d p i j : 0 <= stokes_i a b c d p i j.
Proof. unfold stokes_i. pose proof (Rle_0_sqr (a p i j)). pose proof (Rle_0_sqr (b p i j)). pose proof (Rle_0_sqr (c p i j)). pose proof (Rle_0_sqr (d p i j)). unfold Rsqr in *. lra. Qed.
Lemma band_increasing n ref step v : 0 < step -> increasing n (band_freq ref step v).
Proof. intros S0 i _. unfold band_freq. rewrite S_INR. apply Rplus_lt_compat_l. apply Rmult_lt_compat_r; lra. Qed.

Lemma degrees_true u : degrees u -> is_degrees u = true. Proof. apply is_degrees_spec. Qed.
Lemma pixel_of ref step x : step <> 0 -> x - (1 - ref) * step = pixel ref step x * step.
Proof. intros S0. unfold pixel. field. exact S0. Qed.
Lemma pos_stretched n n' ref step v : step <> 0 -> (0 < n')%nat ->
  axis_pos n ((1 - ref) * step) ((1 + INR n' - ref) * step) v = clamp 0 (INR n - 1) (pixel ref step v * ((INR n - 1) / INR n')).
Proof.
  intros S0 N. unfold axis_pos. f_equal. rewrite pixel_of by exact S0. replace ((1 + INR n' - ref) * step - (1 - ref) * step) with (INR n' * step) by ring. field. split; [apply not_0_INR; lia|exact S0].
Qed.
Lemma sampled_tri n2 n1 A w k row col : tri (K := RR) Rmult n2 n1 row col w k (fun i j p => A p i j) = sampled n2 n1 A w k row col.
Proof. unfold tri, sampled. apply (csum_ext (K := RR)). intros i _. apply (csum_ext (K := RR)). intros j _. reflexivity. Qed.

(* the check of the extents *)
Lemma inside_main bh h mask : 0 < bh_cdelt1 bh -> 0 < bh_cdelt2 bh ->
  (existsb (fun c => (if Rlt_dec (axis_coord (crpix1 h) (cdelt1 h) (snd (nth c mask (0, 0)%nat))) ((1 - bh_crpix1 bh) * bh_cdelt1 bh) then true else false) ||
                     (if Rlt_dec (axis_coord (crpix2 h) (cdelt2 h) (fst (nth c mask (0, 0)%nat))) ((1 - bh_crpix2 bh) * bh_cdelt2 bh) then true else false) ||
                     (if Rlt_dec ((1 + INR (bh_naxis1 bh) - bh_crpix1 bh) * bh_cdelt1 bh) (axis_coord (crpix1 h) (cdelt1 h) (snd (nth c mask (0, 0)%nat))) then true else false) ||
                     (if Rlt_dec ((1 + INR (bh_naxis2 bh) - bh_crpix2 bh) * bh_cdelt2 bh) (axis_coord (crpix2 h) (cdelt2 h) (fst (nth c mask (0, 0)%nat))) then true else false))%bool (seq 0 (List.length mask)) = false) <-> covers bh h mask.
Proof.
  intros D1 D2.
  assert (P : forall ref step x n, 0 < step -> (~ x < (1 - ref) * step /\ ~ (1 + n - ref) * step < x) <-> 0 <= pixel ref step x <= n).
  { intros ref step x n S0. pose proof (pixel_of ref step x ltac:(lra)) as E. assert (X : x = (pixel ref step x + 1 - ref) * step) by (rewrite <- (Rplus_0_r x) at 1; replace ((pixel ref step x + 1 - ref) * step) with (pixel ref step x * step + (1 - ref) * step) by ring; rewrite <- E; ring).
    set (q := pixel ref step x) in *. clearbody q. subst x. split.
    - intros [A B]. split; apply Rnot_lt_le; intros C; [apply A|apply B]; apply Rmult_lt_compat_r; lra.
    - intros [A B]. split; intros C; apply Rmult_lt_reg_r in C; lra. }
  split.
  - intros H i j I. apply (In_nth _ _ (0, 0)%nat) in I. destruct I as (c & CL & CN).
    assert (F : forall g, existsb g (seq 0 (List.length mask)) = false -> g c = false). { intros g E. destruct (g c) eqn:G; [|reflexivity]. assert (existsb g (seq 0 (List.length mask)) = true) by (apply existsb_exists; exists c; split; [apply in_seq; lia|exact G]). congruence. }
    apply F in H. rewrite CN in H. cbn [fst snd] in H. rewrite !orb_false_iff in H. destruct H as [[[A B] C] D].
    split; apply P; try assumption; split; intros X.
    + destruct (Rlt_dec _ _) in A; [discriminate|]. now apply n.
    + destruct (Rlt_dec _ _) in C; [discriminate|]. now apply n.
    + destruct (Rlt_dec _ _) in B; [discriminate|]. now apply n.
    + destruct (Rlt_dec _ _) in D; [discriminate|]. now apply n.
  - intros H. match goal with |- ?e = false => destruct e eqn:E; [|reflexivity] end. exfalso. apply existsb_exists in E. destruct E as (c & I & E). apply in_seq in I.
    destruct (nth c mask (0, 0)%nat) as [i j] eqn:CN. assert (IN : In (i, j) mask) by (rewrite <- CN; apply nth_In; lia). destruct (H i j IN) as [A B]. apply P in A; [|assumption]. apply P in B; [|assumption]. cbn [fst snd] in E.
    change (axis_coord (crpix1 h) (cdelt1 h) j) with (coordinate (crpix1 h) (cdelt1 h) j) in E. change (axis_coord (crpix2 h) (cdelt2 h) i) with (coordinate (crpix2 h) (cdelt2 h) i) in E.
    destruct (Rlt_dec _ _) in E; [tauto|]. destruct (Rlt_dec _ _) in E; [tauto|]. destruct (Rlt_dec _ _) in E; [tauto|]. destruct (Rlt_dec _ _) in E; [tauto|]. discriminate.
Qed.

Lemma value_main name paths disk h nband mask freqs bh a b c d : name <> "eidos"%string -> loads disk paths bh a b c d -> usable bh -> mask <> [] -> covers bh h mask ->
  exists out, interpolate_beam name paths disk h nband mask freqs = Ok out /\
  forall s i j f, nth_error mask s = Some (i, j) -> (f < nband)%nat ->
    exists sc w k, freq_plane (bh_naxis3 bh) (band_freq (bh_crpix3 bh) (bh_cdelt3 bh) (bh_crval3 bh)) (freqs f) sc w k /\ (S k < bh_naxis3 bh)%nat /\
      let col := pixel (bh_crpix1 bh) (bh_cdelt1 bh) (sc * coordinate (crpix1 h) (cdelt1 h) j) in
      let row := pixel (bh_crpix2 bh) (bh_cdelt2 bh) (sc * coordinate (crpix2 h) (cdelt2 h) i) in
      out s f = sampled (bh_naxis2 bh) (bh_naxis1 bh) (stokes_i a b c d) w k
        (clamp 0 (INR (bh_naxis2 bh) - 1) (col * ((INR (bh_naxis2 bh) - 1) / INR (bh_naxis1 bh))))
        (clamp 0 (INR (bh_naxis1 bh) - 1) (row * ((INR (bh_naxis1 bh) - 1) / INR (bh_naxis2 bh)))).
Proof.
  intros NE L (U1 & U2 & CT & N1 & N2 & N3 & D1 & D2 & D3) NM CV. unfold interpolate_beam. rewrite L. destruct (String.eqb_spec name "eidos"); [contradiction|]. cbn [bind beam_amp c1_re c1_im c2_re c2_im l_hdr].
  rewrite (degrees_true _ U1), (degrees_true _ U2), CT. cbn [negb String.eqb Ascii.eqb Bool.eqb].
  destruct (Nat.eqb_spec (List.length mask) 0) as [Z|_]; [destruct mask; [contradiction|discriminate]|]. rewrite (proj2 (inside_main bh h mask D1 D2) CV).
  fold (stokes_i a b c d).
  match goal with |- exists out, bind (beam_cube_dde ?B ?ext ?n ?g ?ns ?lm ?nt ?na ?pa ?pe ?asc ?nf ?fr) _ = _ /\ _ =>
    destruct (dde_value B ext g N2 N1 N3 (band_increasing _ _ _ _ D3) ns lm nt na pa pe asc nf fr) as (out & E & V) end.
  cbn [b_nud] in E. rewrite E. cbn [bind]. eexists. split; [reflexivity|]. intros s i j f NS F. cbv beta.
  assert (SL : (s < List.length mask)%nat) by (apply nth_error_Some; congruence). assert (SN : nth s mask (0, 0)%nat = (i, j)) by (apply nth_error_nth; exact NS).
  destruct (V s O O f O SL ltac:(lia) ltac:(lia) F) as (sc & w & k & FP & K & VV). cbn [b_nud] in FP, K. exists sc, w, k. split; [exact FP|]. split; [exact K|]. cbv zeta in VV |- *. rewrite VV. clear VV.
  unfold tri_amp, tri_val. cbn [b_at b_lw b_mh Nat.eqb].
  pose proof (freq_plane_facts _ _ _ _ _ _ N3 (band_increasing _ _ _ _ D3) FP) as W.
  rewrite (with_amp_real (bh_naxis2 bh) (bh_naxis1 bh) _ _ w k (fun i j p => stokes_i a b c d p i j)); [|tauto|intros; apply stokes_pos].
  cbn [ofR re fst]. etransitivity; [apply sampled_tri|]. 
  unfold beam_l, beam_m. rewrite SN. cbn [fst snd]. rewrite cos_0, sin_0.
  assert (EL : forall x y, 1 * ((sc * x + 0) * 1 - (sc * y + 0) * 0) = sc * x) by (intros; ring). assert (EM : forall x y, 1 * ((sc * x + 0) * 0 + (sc * y + 0) * 1) = sc * y) by (intros; ring).
  rewrite EL, EM. rewrite !pos_stretched by (lra || lia). reflexivity.
Qed.
