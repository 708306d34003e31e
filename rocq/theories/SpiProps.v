(* C56: fitting spectral indices *)
From Coq Require Import Reals Lra Lia.
From Verif Require Import Prelude SpiModel SpiSpec SpiProofs.
Open Scope R_scope.

(* Parameters that reproduce the data exactly are returned unchanged, with zero variances. *)
Theorem C56_exact_data : forall nc n t data wt freqs freq0 alphai I0i beam tol maxiter c a i, t <> OtherType -> tol < 1 -> (0 < maxiter)%nat -> (0 < n)%nat -> n <> 2%nat -> (c < nc)%nat ->
  starts_at n data freqs freq0 alphai I0i beam c (a, i) ->
  (forall v, (v < n)%nat -> data c v = spectrum (fun v => freqs v / freq0) (beam_or_1 beam c) a i v) ->
  exists out, fit_spi_components nc n t data wt freqs freq0 alphai I0i beam tol maxiter = Ok out /\ out 0%nat c = a /\ out 1%nat c = 0 /\ out 2%nat c = i /\ out 3%nat c = 0.
Proof.
  intros nc n t data wt freqs freq0 alphai I0i beam tol maxiter c a i Hd Ht Hm Hp Hn Hc Hs H. apply start_spec in Hs; auto. rewrite <- beam_same in H.
  pose proof (fit_exact nc n t data wt freqs freq0 alphai I0i beam tol maxiter c Hd Ht Hm Hn Hc) as F. rewrite <- Hs in F. apply F, H.
Qed.
(* In general the result is the last of at most maxiter Gauss-Newton steps from the start; they stop at the first that changes
   neither parameter by more than tol.  The variances are those at the point before the last step. *)
Theorem C56_iterations : forall nc n t data wt freqs freq0 alphai I0i beam tol maxiter c, t <> OtherType -> tol < 1 -> (0 < maxiter)%nat -> (0 < n)%nat -> n <> 2%nat -> (c < nc)%nat ->
  let w v := freqs v / freq0 in let b := beam_or_1 beam c in let d := data c in let mindet := match t with Float32 => 1 / 10 ^ 5 | _ => 1 / 10 ^ 12 end in
  exists out k (p : nat -> R * R), fit_spi_components nc n t data wt freqs freq0 alphai I0i beam tol maxiter = Ok out /\ (1 <= k <= maxiter)%nat /\
    starts_at n data freqs freq0 alphai I0i beam c (p O) /\
    (forall j, (j < k)%nat -> p (S j) = newton n d wt w b mindet (p j)) /\
    (forall j, (j < k - 1)%nat -> tol < change (p j) (p (S j))) /\ (change (p (k - 1)%nat) (p k) <= tol \/ k = maxiter) /\
    out 0%nat c = fst (p k) /\ out 2%nat c = snd (p k) /\
    let '(a, i) := p (k - 1)%nat in let D := floored mindet (det n wt w b a i) in
    out 1%nat c = h_ii n wt w b a / D * (chi2 n d wt w b a i / (INR n - 2)) /\ out 3%nat c = h_aa n wt w b a i / D * (chi2 n d wt w b a i / (INR n - 2)).
Proof.
  intros nc n t data wt freqs freq0 alphai I0i beam tol maxiter c Hd Ht Hm Hp Hn Hc.
  pose proof (fit_iterates nc n t data wt freqs freq0 alphai I0i beam tol maxiter c Hd Ht Hm Hn Hc) as F. cbv zeta in F |- *. rewrite beam_same in F. fold (mindet_of t).
  destruct F as (out & k & p & E & Hk & Hs & F). exists out, k, p. split; [exact E|]. split; [exact Hk|]. split; [|exact F]. apply start_spec; auto. now rewrite beam_same.
Qed.
(* A step solves the normal equations of weighted least squares wherever their determinant is not below the floor, *)
Theorem C56_normal_equations : forall n d wt w b mindet p, 0 < mindet -> mindet <= det n wt w b (fst p) (snd p) ->
  solves_normal_equations n d wt w b p (newton n d wt w b mindet p).
Proof. exact normal_equations. Qed.
(* the columns of those equations being the derivatives of the spectrum, *)
Theorem C56_derivatives : forall w b a i v,
  derivable_pt_lim (fun a => spectrum w b a i v) a (by_index w b a i v) /\ derivable_pt_lim (fun i => spectrum w b a i v) i (by_intensity w b a v).
Proof. intros. split; [apply spectrum_by_index|apply spectrum_by_intensity]. Qed.
(* so that the iteration stands still exactly at the stationary points of the weighted misfit. *)
Theorem C56_stationary : forall n d wt w b mindet a i, 0 < mindet -> mindet <= det n wt w b a i ->
  (newton n d wt w b mindet (a, i) = (a, i) <->
   derivable_pt_lim (fun a => chi2 n d wt w b a i) a 0 /\ derivable_pt_lim (fun i => chi2 n d wt w b a i) i 0).
Proof. exact stationary_point. Qed.
(* Variances are not negative with more than two channels and weights that are not negative. *)
Theorem C56_variances : forall nc n t data wt freqs freq0 alphai I0i beam tol maxiter c, t <> OtherType -> tol < 1 -> (0 < maxiter)%nat -> (2 < n)%nat -> (c < nc)%nat ->
  (forall v, (v < n)%nat -> 0 <= wt v) ->
  exists out, fit_spi_components nc n t data wt freqs freq0 alphai I0i beam tol maxiter = Ok out /\ 0 <= out 1%nat c /\ 0 <= out 3%nat c.
Proof. exact variances_nonneg. Qed.
(* Chunking the components changes nothing. *)
Theorem C56_chunks : forall comps n t data wt freqs freq0 alphai I0i beam tol maxiter p c, t <> OtherType -> tol < 1 -> (0 < maxiter)%nat -> n <> 2%nat -> (c < list_sum comps)%nat -> (p < 4)%nat ->
  exists out, fit_spi_components (list_sum comps) n t data wt freqs freq0 alphai I0i beam tol maxiter = Ok out /\
  dask_fit comps [n] t data wt freqs freq0 alphai I0i beam tol maxiter p c = Ok (out p c).
Proof. intros comps n. exact (dask_rows comps n []). Qed.
(* Chunking the channels drops all chunks but the first without an error. *)
Theorem C56_channel_chunks_refuted : forall comps n rest t data wt freqs freq0 alphai I0i beam tol maxiter p c, t <> OtherType -> tol < 1 -> (0 < maxiter)%nat -> n <> 2%nat -> (c < list_sum comps)%nat -> (p < 4)%nat ->
  exists out, fit_spi_components (list_sum comps) n t data wt freqs freq0 alphai I0i beam tol maxiter = Ok out /\
  dask_fit comps (n :: rest) t data wt freqs freq0 alphai I0i beam tol maxiter p c = Ok (out p c).
Proof. exact dask_rows. Qed.
(* Other element types are refused; a tolerance of one or more, or no iterations, reads variables never set; two channels divide
   by zero degrees of freedom. *)
Theorem C56_raises : forall nc n t data wt freqs freq0 alphai I0i beam tol maxiter, (0 < nc)%nat ->
  (t = OtherType -> fit_spi_components nc n t data wt freqs freq0 alphai I0i beam tol maxiter = Raise ValueError) /\
  (t <> OtherType -> 1 <= tol \/ maxiter = O -> fit_spi_components nc n t data wt freqs freq0 alphai I0i beam tol maxiter = Raise NameError) /\
  (t <> OtherType -> tol < 1 -> (0 < maxiter)%nat -> n = 2%nat -> fit_spi_components nc n t data wt freqs freq0 alphai I0i beam tol maxiter = Raise ZeroDivision).
Proof. exact fit_raises. Qed.
Print Assumptions C56_exact_data.
Print Assumptions C56_iterations.
Print Assumptions C56_normal_equations.
Print Assumptions C56_derivatives.
Print Assumptions C56_stationary.
Print Assumptions C56_variances.
Print Assumptions C56_chunks.
Print Assumptions C56_channel_chunks_refuted.
Print Assumptions C56_raises.

(* non-vacuity: three channels, a spectrum of the default index -0.7 and intensity 5, no starting values *)
Example C56_demo : let freqs v := INR (S v) in let data (c v : nat) := 5 * (1 * Rpower (INR (S v) / 1) (- (7 / 10))) in
  starts_at 3 data freqs 1 None None None 0 (- (7 / 10), 5) /\
  forall v, (v < 3)%nat -> data 0%nat v = spectrum (fun v => freqs v / 1) (beam_or_1 None 0) (- (7 / 10)) 5 v.
Proof.
  cbv zeta. split; [|reflexivity]. split; [reflexivity|]. exists O. split.
  - split; [lia|]. intros v Hv. split; [|lia]. cbn [INR]. replace (1 - 1) with 0 by ring. rewrite Rabs_R0. apply Rabs_pos.
  - cbn [snd beam_or_1]. unfold beam_or_1. cbn [INR]. replace (1 / 1) with 1 by field. unfold Rpower. rewrite ln_1. replace (- (7 / 10) * 0) with 0 by ring. rewrite exp_0. field.
Qed.
(* the determinant condition is met: two channels at relative frequencies 1 and e, unit weights, beam, index 0 and intensity *)
Example C56_demo_det : let w v := match v with O => 1 | _ => exp 1 end in det 2 (fun _ => 1) w (fun _ => 1) 0 1 = 1.
Proof.
  cbv zeta. unfold det, h_aa, h_ai, h_ii, inner, by_index, by_intensity, spectrum, Rpower. cbn [total]. rewrite ln_1, ln_exp. replace (0 * 0) with 0 by ring. replace (0 * 1) with 0 by ring. rewrite exp_0. ring.
Qed.
