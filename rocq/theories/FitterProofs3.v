From Coq Require Import Reals Lra.
From Coq Require Import String Ascii.
From Verif Require Import Prelude CRing CplxR DaskPredictModel ApplyGainsModel ApplyGainsProofs SpiModel SpiSpec SpiProofs SpiProps FftFacts RestoreModel RestoreSpec RestoreProofs RestoreProofs2 FitterModel FitterSpec FitterProofs FitterProofs2.
Open Scope list_scope.
Open Scope R_scope.

Lemma bands_same h ax n r d v ax' n' r' d' v' : describes_bands h ax n r d v -> describes_bands h ax' n' r' d' v' -> ax = ax' /\ n = n' /\ r = r' /\ d = d' /\ v = v'.
Proof. intros A B. apply axis_bands in A. apply axis_bands in B. rewrite A in B. injection B as <- <- <- <- <-. tauto. Qed.
Lemma nth_map_seq (g : nat -> R) n c : (c < n)%nat -> nth c (map g (seq 0 n)) 0 = g c.
Proof. intros C. rewrite nth_indep with (d' := g O) by (rewrite map_length, seq_length; exact C). rewrite map_nth, seq_nth by exact C. reflexivity. Qed.
Lemma rms_band b n1 n2 x : cube_std b 1 n1 n2 x = rms b 1 n1 n2 x.
Proof. apply std_rms. Qed.

Lemma maps_main pocket fast o resid h M interp f : (0 < f_nband f)%nat -> spi_fit pocket fast o resid h M interp = Ok f ->
  exists rd ref step value wt,
    resid = Some rd /\ ready o rd h (f_axis f) (f_nband f) ref step value (f_kern f) /\
    (forall b, f_freqs f b = band_freq ref step value b) /\ f_ref f = value /\
    match interp with None => f_beam f = None | Some g => exists bs, g (f_mask f) (f_freqs f) = Ok bs /\ f_beam f = Some bs end /\
    ((exists b, (b < f_nband f)%nat /\ 0 < rms b 1 (naxis2 h) (naxis1 h) (r_data rd)) ->
       inverse_variance (f_nband f) (fun b => rms b 1 (naxis2 h) (naxis1 h) (r_data rd)) wt) /\
    let conv := restored_cube pocket fast o h M (f_kern f) in let t := level o rd h (f_nband f) in
    lists_bright (f_mask f) (f_nband f) conv t /\
    (forall i j, bright (f_nband f) conv t i j -> (i < naxis1 h)%nat /\ (j < naxis2 h)%nat) /\
    (forall c i j, nth_error (f_mask f) c = Some (i, j) ->
       fit_of (f_nband f) (fun b => match f_beam f with None => cu_at conv b i j | Some bs => cu_at conv b i j / bs c b end) wt (f_freqs f) value (f_alpha f i j) (f_i0 f i j)) /\
    (forall i j, ~ bright (f_nband f) conv t i j -> f_alpha f i j = 0 /\ f_i0 f i j = 0).
Proof.
  intros NB H. destruct (fit_runs _ _ _ _ _ _ _ _ H) as (rd & emaj & emin & pa & ax & nband & ref & step & value & G & conv & wt & out & -> & R).
  destruct R. rewrite run_nb in *. exists rd, ref, step, value, wt. split; [reflexivity|]. split.
  { exists emaj, emin, pa. rewrite run_ax, run_k. split; [assumption|]. split; [assumption|]. split; [assumption|]. split; [assumption|]. split; [lia|exact run_kern]. }
  split; [intros b; rewrite run_freqs; reflexivity|]. split; [exact run_ref|]. split; [exact run_interp|].
  split. { intros HB. rewrite run_wt. pose proof (weights_spec nband (fun b => cube_std b 1 (naxis2 h) (naxis1 h) (r_data rd)) NB) as W.
    assert (E : forall b, cube_std b 1 (naxis2 h) (naxis1 h) (r_data rd) = rms b 1 (naxis2 h) (naxis1 h) (r_data rd)) by (intros b; apply std_rms).
    destruct W as (s & S0 & A & B & C & D). { destruct HB as [b [B P]]. exists b. now rewrite E. }
    exists s. split; [exact S0|]. split; [intros b Hb P; rewrite <- E in P |- *; now apply A|]. split; [intros b Hb P; rewrite <- E in P; now apply B|tauto]. }
  cbv zeta. unfold restored_cube, level. rewrite run_k, <- run_conv, <- std_rms.
  assert (IN : forall i j, In (i, j) (f_mask f) <-> bright nband conv (o_threshold o * cube_std 0 nband (naxis2 h) (naxis1 h) (r_data rd)) i j).
  { intros i j. rewrite run_mask. now apply mask_in. }
  assert (ND : NoDup (f_mask f)) by (rewrite run_mask; apply mask_nodup).
  destruct (scatter_ok _ _ _ _ _ ND ltac:(rewrite map_length, seq_length; reflexivity) run_alpha) as (AI & AV & AO).
  destruct (scatter_ok _ _ _ _ _ ND ltac:(rewrite map_length, seq_length; reflexivity) run_i0) as (_ & IV & IO).
  split; [split; assumption|]. split; [intros i j B; apply AI; now apply IN|]. split.
  - intros c i j C. assert (CL : (c < List.length (f_mask f))%nat) by (apply nth_error_Some; congruence).
    assert (CN : nth c (f_mask f) (0, 0)%nat = (i, j)) by (apply nth_error_nth; exact C).
    pose proof (AV c CL) as A. pose proof (IV c CL) as I. rewrite CN, nth_map_seq in A, I by exact CL. cbn [fst snd] in A, I. rewrite A, I.
    pose proof (fit_is _ _ _ _ _ _ _ c NB run_n2 CL run_out) as F. unfold cut in F at 1. rewrite CN in F. exact F.
  - intros i j B. split; [apply AO|apply IO]; now rewrite IN.
Qed.

(* maps do not depend on the number of threads *)
Lemma maps_eq f f' : f_axis f = f_axis f' -> f_nband f = f_nband f' -> f_freqs f = f_freqs f' -> f_ref f = f_ref f' -> f_kern f = f_kern f' -> f_mask f = f_mask f' -> f_beam f = f_beam f' ->
  f_alpha f = f_alpha f' -> f_i0 f = f_i0 f' -> f = f'.
Proof. destruct f, f'; cbn; congruence. Qed.
Lemma threads_main pocket fast o o' resid h M interp f f' : same_but_threads o o' ->
  spi_fit pocket fast o resid h M interp = Ok f -> spi_fit pocket fast o' resid h M interp = Ok f' -> f = f'.
Proof.
  intros (S1 & S2 & S3) H H'. destruct (fit_runs _ _ _ _ _ _ _ _ H) as (rd & emaj & emin & pa & ax & nband & ref & step & value & G & conv & wt & out & -> & R).
  destruct (fit_runs _ _ _ _ _ _ _ _ H') as (rd' & emaj' & emin' & pa' & ax' & nband' & ref' & step' & value' & G' & conv' & wt' & out' & E & R').
  injection E as <-. destruct R, R'.
  destruct (bands_same _ _ _ _ _ _ _ _ _ _ _ run_bands run_bands0) as (-> & -> & -> & -> & ->).
  assert (EB : (emaj, emin, pa) = (emaj', emin', pa')).
  { destruct run_beam as [[A B]|A], run_beam0 as [[A' B']|A']; rewrite S1 in A; congruence. }
  injection EB as -> -> ->. rewrite run_kern in run_kern0. injection run_kern0 as <-.
  assert (EC : conv = conv') by (rewrite run_conv, run_conv0, S3; reflexivity). rewrite <- EC in run_mask0, run_out0.
  assert (EW : wt = wt') by now rewrite run_wt, run_wt0. rewrite <- EW in run_out0.
  assert (EM : f_mask f = f_mask f') by (rewrite run_mask, run_mask0, S2; reflexivity).
  assert (EF : f_freqs f = f_freqs f') by congruence.
  assert (EBM : f_beam f = f_beam f').
  { destruct interp as [g|]; [|congruence]. destruct run_interp as (bs & B1 & B2), run_interp0 as (bs' & B1' & B2'). rewrite EM, EF in B1. rewrite B1 in B1'. injection B1' as <-. congruence. }
  clear H H'. rewrite EM, EF, EBM in run_out. rewrite EM in run_alpha, run_i0. rewrite run_out in run_out0. injection run_out0 as <-. rewrite run_alpha in run_alpha0. rewrite run_i0 in run_i1. injection run_alpha0 as EA. injection run_i1 as EI.
  apply maps_eq; congruence.
Qed.

(* what happens when everything is ready *)
Lemma outcome_main pocket fast o rd h M ax nband ref step value G : ready o rd h ax nband ref step value G -> (0 < threads o)%nat ->
  let conv := restored_cube pocket fast o h M G in let t := level o rd h nband in
  (forall l, lists_bright l nband conv t ->
    (l = [] -> spi_fit pocket fast o (Some rd) h M None = Raise ValueError) /\
    (l <> [] -> (List.length l < threads o)%nat -> spi_fit pocket fast o (Some rd) h M None = Raise ZeroDivision) /\
    ((threads o <= List.length l)%nat -> (exists i j, bright nband conv t i j /\ (naxis1 h <= i \/ naxis2 h <= j)%nat) -> spi_fit pocket fast o (Some rd) h M None = Raise IndexError) /\
    ((threads o <= List.length l)%nat -> (forall i j, bright nband conv t i j -> (i < naxis1 h /\ j < naxis2 h)%nat) -> exists f, spi_fit pocket fast o (Some rd) h M None = Ok f)) /\
  exists l, lists_bright l nband conv t.
Proof.
  intros (emaj & emin & pa & B & U1 & U2 & BD & N & EG) TH conv t.
  set (ms := mask nband conv (o_threshold o * cube_std 0 nband (naxis2 h) (naxis1 h) (r_data rd))).
  assert (MB : lists_bright ms nband conv t).
  { split; [apply mask_nodup|]. intros i j. unfold ms. rewrite mask_in by lia. unfold t, level. now rewrite std_rms. }
  split; [|exists ms; exact MB]. intros l [LN LB].
  assert (PL : List.length l = List.length ms).
  { apply Nat.le_antisymm; apply NoDup_incl_length; try assumption; try apply MB; intros [i j] I; [apply (proj2 MB), LB, I|apply LB, (proj2 MB), I]. }
  assert (EN : l = [] <-> ms = []). { split; intros E; rewrite E in PL; [destruct ms|destruct l]; cbn in PL; congruence. }
  apply is_degrees_spec in U1, U2. apply axis_bands in BD.
  assert (EB : match o_beampars o with None => match r_beam rd with None => Raise KeyError | Some b => Ok b end | Some [x; y; z] => Ok (x, y, z) | Some _ => Raise TypeError end = Ok (emaj, emin, pa)).
  { destruct B as [[-> ->]|B]; [reflexivity|]. rewrite B. reflexivity. }
  unfold spi_fit. rewrite EB, U1, U2, BD. cbn [bind negb]. cbv zeta. change (fun (_ j : nat) => axis_coord (crpix1 h) (cdelt1 h) j) with (fun (_ j : nat) => (INR j + 1 - crpix1 h) * cdelt1 h).
  change (fun (i _ : nat) => axis_coord (crpix2 h) (cdelt2 h) i) with (fun (i _ : nat) => (INR i + 1 - crpix2 h) * cdelt2 h). rewrite EG. cbn [bind].
  destruct (Nat.eqb_spec nband 1) as [|_]; [lia|]. fold (restored_cube pocket fast o h M G). fold conv. fold ms. rewrite PL.
  split; [intros E; apply EN in E; now rewrite E|].
  set (fr := fun b => value + axis_coord ref step b). set (wt := band_weights nband _).
  assert (NE : l <> [] -> forall X (a b : X), match ms with [] => a | _ => b end = b) by (intros NL X a b; destruct ms; [exfalso; apply NL, EN; reflexivity|reflexivity]).
  assert (NL : (threads o <= List.length ms)%nat -> l <> []) by (intros T E; apply EN in E; rewrite E in T; cbn in T; lia).
  split; [|].
  - intros NL' T. rewrite NE by exact NL'. rewrite Nat.div_small by exact T. reflexivity.
  - assert (GO : (threads o <= List.length ms)%nat -> (0 < Nat.div (List.length ms) (threads o))%nat) by (intros T; apply Nat.div_str_pos; lia).
    split; intros T H; rewrite NE by (apply NL, T); cbn [bind]; (destruct (Nat.eqb_spec (Nat.div (List.length ms) (threads o)) 0) as [Z|_]; [specialize (GO T); lia|]);
    destruct (vals_all (List.length ms) (Nat.div (List.length ms) (threads o)) nband (fun c b => cu_at conv b (fst (nth c ms (0, 0)%nat)) (snd (nth c ms (0, 0)%nat))) wt fr value (GO T) ltac:(lia)) as [out [_ EV]];
    rewrite EV; cbn [bind].
    + destruct H as (i & j & BR & O). apply (proj2 MB) in BR. now rewrite (scatter_refuses _ _ _ _ i j BR O).
    + assert (IN : forall i j, In (i, j) ms -> (i < naxis1 h)%nat /\ (j < naxis2 h)%nat) by (intros i j I; apply H, (proj2 MB), I).
      destruct (scatter_total (naxis1 h) (naxis2 h) ms (map fst (map (fun c => (out 0%nat c, out 2%nat c)) (seq 0 (List.length ms)))) IN) as [am ->].
      destruct (scatter_total (naxis1 h) (naxis2 h) ms (map snd (map (fun c => (out 0%nat c, out 2%nat c)) (seq 0 (List.length ms)))) IN) as [im ->]. cbn [bind]. eexists. reflexivity.
Qed.
