(* C100: generated beam files (testing/beam_factory.py). *)
From Coq Require Import Reals String ZArith Lra Lia.
From Verif Require Import Prelude AxesModel AxesSpec BeamFactoryModel BeamFactorySpec BeamFactoryProofs.
Open Scope R_scope.

(* the axes that beam_grids finds in a generated file are the sky from -1.5 to 1.5 degrees and the frequencies of the cube, and the
   data are the beam at these points: frequency, then m, then l *)
Theorem C100_round_trip : forall pol nf fr npix known schema random w, beam_factory pol (Some (nf, fr)) npix known schema random = Ok w -> (forall i, 0 <= random i <= 1) ->
  exists gl gm gf, beam_grids (Some (w_header w)) AxNone AxNone = Ok ((1, w_npix w, gl), (2, w_npix w, gm), (3, w_nfreq w, gf))%nat /\
    Z.of_nat (w_npix w) = npix /\ sky_grid (w_npix w) gl /\ sky_grid (w_npix w) gm /\
    jittered (fr 0%nat) (fr (nf - 1)%nat) (1 / 20 * Rabs ((fr (nf - 1)%nat - fr 0%nat) / 33 - 1)) gf /\
    forall k i j, (k < w_nfreq w)%nat -> (i < w_npix w)%nat -> (j < w_npix w)%nat -> w_data w k i j = westerbork (gf k) (gl j) (gm i).
Proof.
  intros pol nf fr npix known schema random w E U. apply factory_ok in E. cbn [freqs fst snd] in E. destruct E as (N3 & _ & _ & -> & -> & -> & M & D).
  destruct (grids_header (Z.to_nat npix) (linspace (- extent_deg / 2) (extent_deg / 2) (Z.to_nat npix) (Z.to_nat npix / 2)%nat) (extent_deg / INR (Z.to_nat npix - 1)) (fr 0%nat)
    (delta_of (fr 0%nat) (fr (nf - 1)%nat)) (freq_of (fr 0%nat) (fr (nf - 1)%nat) random) ltac:(lia)) as (gl & gm & gf & G & Gl & Gm & Gf).
  assert (Cl : forall j, gl j = deg2rad (linspace (- extent_deg / 2) (extent_deg / 2) (Z.to_nat npix) j)) by (intros j; rewrite Gl; apply sky_coords; exact N3).
  assert (Cm : forall j, gm j = deg2rad (linspace (- extent_deg / 2) (extent_deg / 2) (Z.to_nat npix) j)) by (intros j; rewrite Gm; apply sky_coords; exact N3).
  exists gl, gm, gf. split; [exact G |]. split; [lia |]. split; [apply sky_grid_coords; assumption |]. split; [apply sky_grid_coords; assumption |]. split.
  - unfold jittered. split; [rewrite Gf by lia; apply freq0 |]. split; [rewrite Gf by lia; apply freq32 |]. split.
    + intros i Hi. rewrite !Gf by lia. apply M. exact Hi.
    + intros i Hi. rewrite Gf by lia. apply jitter_bound. exact U.
  - intros k i j Hk Hi Hj. rewrite D, Gf, Cl, Cm by lia. reflexivity.
Qed.
(* the cube: one in the centre, symmetric about it and about the diagonal, falling with frequency, and within its range *)
Theorem C100_cube : forall pol nf fr npix known schema random w, beam_factory pol (Some (nf, fr)) npix known schema random = Ok w -> 0 <= fr 0%nat ->
  let n := w_npix w in
  (forall k, (k < 33)%nat -> w_data w k (n / 2)%nat (n / 2)%nat = 1) /\
  forall k i j, (k < 33)%nat -> (i < n)%nat -> (j < n)%nat ->
    w_data w k (n - 1 - i)%nat j = w_data w k i j /\ w_data w k i (n - 1 - j)%nat = w_data w k i j /\ w_data w k i j = w_data w k j i /\
    cos (10881 / 10000) ^ 3 <= w_data w k i j <= 1 /\ ((S k < 33)%nat -> w_data w (S k) i j <= w_data w k i j).
Proof.
  intros pol nf fr npix known schema random w E P. apply factory_ok in E. cbn [freqs fst snd] in E. destruct E as (N3 & (q & Oq) & _ & -> & _ & _ & M & D).
  set (n := Z.to_nat npix) in *. cbv zeta. set (c := fun i => deg2rad (linspace (- extent_deg / 2) (extent_deg / 2) n i)) in *.
  assert (G : sky_grid n c) by (apply sky_grid_coords; [exact N3 | reflexivity]).
  set (g := freq_of (fr 0%nat) (fr (nf - 1)%nat) random) in *.
  assert (D' : forall k i j, w_data w k i j = westerbork (g k) (c j) (c i)) by exact D.
  assert (Pg : forall k, (k < 33)%nat -> 0 <= g k).
  { intros k Hk. apply Rle_trans with (g 0%nat); [unfold g; rewrite freq0; exact P |]. apply (chain g M); lia. }
  split.
  - intros k Hk. rewrite D'. replace (n / 2)%nat with q.
    + rewrite (grid_centre n c q G Oq ltac:(lia)). apply west_centre.
    + rewrite Oq. replace (2 * q + 1)%nat with (1 + q * 2)%nat by lia. rewrite Nat.div_add by lia. reflexivity.
  - intros k i j Hk Hi Hj. rewrite !D'. split; [|split; [|split; [|split]]].
    + rewrite (grid_mirror n c i G Hi ltac:(lia)). rewrite west_swap, west_neg. apply west_swap.
    + rewrite (grid_mirror n c j G Hj ltac:(lia)). apply west_neg.
    + apply west_swap.
    + apply west_range. apply Pg. exact Hk.
    + intros Sk. apply west_mono; [apply Pg; exact Hk | apply M; lia].
Qed.
(* what is accepted *)
Theorem C100_accepted : forall pol nf fr npix schema random names, (pol = "linear" \/ pol = "circular")%string -> Z.odd npix = true -> (3 <= npix)%Z -> nf <> 0%nat ->
  3 <= fr (nf - 1)%nat - fr 0%nat -> (forall i, 0 <= random i <= 1) -> beam_filenames schema (if String.eqb pol "linear" then [9; 10; 11; 12]%Z else [5; 6; 7; 8]%Z) = Ok names ->
  exists w, beam_factory pol (Some (nf, fr)) npix true schema random = Ok w /\ w_names w = names.
Proof.
  intros pol nf fr npix schema random names Hp O N3 Hf W U F. rewrite factory_eq. cbn [freqs fst snd]. rewrite Zmod_odd, O. cbn [Z.eqb Pos.eqb negb].
  apply Nat.eqb_neq in Hf. rewrite Hf. replace (String.eqb pol "linear" || String.eqb pol "circular")%bool with true by (destruct Hp as [-> | ->]; reflexivity). cbn [negb].
  replace (Z.ltb npix 0) with false by (symmetry; apply Z.ltb_ge; lia). replace (Nat.eqb (Z.to_nat npix) 1) with false by (symmetry; apply Nat.eqb_neq; lia).
  rewrite mono_ok by assumption. cbn [negb]. unfold ids_of. rewrite F. cbn [bind]. eexists. split; reflexivity.
Qed.
(* one channel, or a band whose ends agree: refused unless every random number is exactly one half *)
Theorem C100_single_channel_refuted : forall pol nf fr npix known schema random w, beam_factory pol (Some (nf, fr)) npix known schema random = Ok w ->
  fr (nf - 1)%nat = fr 0%nat -> forall i, (0 < i < 32)%nat -> random i = 1 / 2.
Proof.
  intros pol nf fr npix known schema random w E S i Hi. apply factory_ok in E. cbn [freqs fst snd] in E. destruct E as (_ & _ & _ & _ & _ & _ & M & _).
  rewrite S in M. pose proof (chain _ M i 0%nat ltac:(lia) ltac:(lia)) as A. pose proof (chain _ M 32%nat i ltac:(lia) ltac:(lia)) as B.
  rewrite freq0 in A. rewrite freq32 in B. unfold freq_of in A, B. rewrite lin32 in A, B.
  replace (Nat.eqb i 0 || Nat.eqb i 32)%bool with false in A, B by (destruct (Nat.eqb_spec i 0), (Nat.eqb_spec i 32); cbn; lia || reflexivity).
  unfold delta_of in A, B. replace ((fr 0%nat - fr 0%nat) / 32) with 0 in A, B by lra. replace ((fr 0%nat - fr 0%nat) / 33) with 0 in A, B by lra. lra.
Qed.
(* what is refused *)
Theorem C100_refused : forall pol nf fr npix known schema random,
  (Z.odd npix = false -> beam_factory pol (Some (nf, fr)) npix known schema random = Raise ValueError) /\
  (Z.odd npix = true -> nf = 0%nat -> beam_factory pol (Some (nf, fr)) npix known schema random = Raise IndexError) /\
  (Z.odd npix = true -> nf <> 0%nat -> (pol <> "linear" /\ pol <> "circular")%string -> beam_factory pol (Some (nf, fr)) npix known schema random = Raise ValueError) /\
  ((pol = "linear" \/ pol = "circular")%string -> nf <> 0%nat ->
    (Z.odd npix = true -> (npix < 0)%Z -> beam_factory pol (Some (nf, fr)) npix known schema random = Raise ValueError) /\
    (npix = 1%Z -> beam_factory pol (Some (nf, fr)) npix known schema random = Raise ZeroDivision) /\
    (Z.odd npix = true -> (3 <= npix)%Z -> beam_factory pol (Some (nf, fr)) npix false schema random = Raise KeyError) /\
    (Z.odd npix = true -> (3 <= npix)%Z -> fr (nf - 1)%nat < fr 0%nat -> beam_factory pol (Some (nf, fr)) npix true schema random = Raise AssertionError)).
Proof.
  intros. rewrite !factory_eq. cbn [freqs fst snd]. rewrite !Zmod_odd. split; [intros ->; reflexivity |]. split; [intros -> ->; reflexivity |].
  split.
  { intros -> Hn (P & Q). apply Nat.eqb_neq in Hn. rewrite Hn. apply String.eqb_neq in P, Q. rewrite P, Q. reflexivity. }
  intros Hp Hn. apply Nat.eqb_neq in Hn. rewrite Hn. replace (String.eqb pol "linear" || String.eqb pol "circular")%bool with true by (destruct Hp as [-> | ->]; reflexivity). cbn [negb].
  split; [intros -> L; apply Z.ltb_lt in L; rewrite L; reflexivity |]. split; [intros ->; reflexivity |].
  split; [intros -> L | intros -> L Dn]; replace (Z.ltb npix 0) with false by (symmetry; apply Z.ltb_ge; lia); replace (Nat.eqb (Z.to_nat npix) 1) with false by (symmetry; apply Nat.eqb_neq; lia); [reflexivity |].
  destruct (monotone 33 _) eqn:M; [|reflexivity]. exfalso. rewrite monotone_ok in M.
  assert (A : freq_of (fr 0%nat) (fr (nf - 1)%nat) random 0%nat <= freq_of (fr 0%nat) (fr (nf - 1)%nat) random 32%nat) by (apply chain; [intros; apply M; lia | lia | lia]).
  rewrite freq0, freq32 in A. lra.
Qed.
(* the step of the frequency axis in the header is never the distance of the frequencies *)
Theorem C100_step_refuted : forall pol nf fr npix known schema random w, beam_factory pol (Some (nf, fr)) npix known schema random = Ok w ->
  ~ numeric (w_header w) "CDELT3" None ((fr (nf - 1)%nat - fr 0%nat) / 32).
Proof.
  intros pol nf fr npix known schema random w E. apply factory_ok in E. cbn [freqs fst snd] in E. destruct E as (_ & _ & _ & _ & _ & -> & M & _).
  assert (A : freq_of (fr 0%nat) (fr (nf - 1)%nat) random 0%nat <= freq_of (fr 0%nat) (fr (nf - 1)%nat) random 32%nat) by (apply chain; [exact M | lia | lia]).
  rewrite freq0, freq32 in A. intros N.
  remember ((fr (nf - 1)%nat - fr 0%nat) / 32) as x eqn:Ex. remember (lookup _) as h eqn:Eh.
  assert (C : h "CDELT3"%string = Some (HReal (delta_of (fr 0%nat) (fr (nf - 1)%nat)))) by (rewrite Eh; reflexivity).
  destruct N as [z H | y H | y H _]; rewrite C in H; try discriminate. injection H as H. unfold delta_of in H. lra.
Qed.

Print Assumptions C100_round_trip.
Print Assumptions C100_cube.
Print Assumptions C100_accepted.
Print Assumptions C100_single_channel_refuted.
Print Assumptions C100_refused.
Print Assumptions C100_step_refuted.

(* three frequencies over 2 GHz, seventeen pixels, the default schema *)
Definition ex_freq : arr R := fun i => match i with O => 1000000000 | 1%nat => 1500000000 | _ => 3000000000 end.
Example C100_ex : exists w, beam_factory "linear" (Some (3%nat, ex_freq)) 17 true "test_beam_$(corr)_$(reim).fits" (fun i => if Nat.even i then 0 else 3 / 4) = Ok w /\
  map fst (w_names w) = ["xx"; "xy"; "yx"; "yy"]%string.
Proof.
  destruct (C100_accepted "linear" 3 ex_freq 17 "test_beam_$(corr)_$(reim).fits" (fun i => if Nat.even i then 0 else 3 / 4) _ (or_introl eq_refl) eq_refl ltac:(lia) ltac:(lia) ltac:(cbn; lra) ltac:(intros i; cbv beta; destruct (Nat.even i); lra) eq_refl) as (w & E & N).
  exists w. split; [exact E |]. rewrite N. reflexivity.
Qed.
Example C100_ex_single : exists w, beam_factory "circular" (Some (1%nat, fun _ => 1000000000)) 3 true "b_$(corr)_$(reim)" (fun _ => 1 / 2) = Ok w.
Proof.
  rewrite factory_eq. cbn [freqs fst snd]. change (negb (Z.eqb (3 mod 2) 1)) with false. cbn [Nat.eqb Z.ltb Z.compare]. cbv zeta.
  replace (monotone 33 (freq_of 1000000000 1000000000 (fun _ => 1 / 2))) with true; [eexists; reflexivity |].
  symmetry. apply monotone_ok. intros i _. unfold freq_of. rewrite !lin32. destruct (_ || _)%bool, (_ || _)%bool; lra.
Qed.
(* without frequencies, the grid runs over the band from 856 MHz to 1712 MHz *)
Theorem C100_default_band : forall pol npix known schema random w, beam_factory pol None npix known schema random = Ok w -> (forall i, 0 <= random i <= 1) ->
  exists gl gm gf, beam_grids (Some (w_header w)) AxNone AxNone = Ok ((1, w_npix w, gl), (2, w_npix w, gm), (3, w_nfreq w, gf))%nat /\
    jittered 856000000 1712000000 (1 / 20 * (856000000 / 33 - 1)) gf /\
    forall k i j, (k < w_nfreq w)%nat -> (i < w_npix w)%nat -> (j < w_npix w)%nat -> w_data w k i j = westerbork (gf k) (gl j) (gm i).
Proof.
  intros pol npix known schema random w E U.
  change (beam_factory pol (Some (64%nat, linspace 856000000 (856000000 * 2) 64)) npix known schema random = Ok w) in E.
  destruct (C100_round_trip _ _ _ _ _ _ _ _ E U) as (gl & gm & gf & A & _ & _ & _ & B & C). exists gl, gm, gf. split; [exact A|]. split; [|exact C].
  rewrite lin0 in B. change (64 - 1)%nat with 63%nat in B. pose proof (lin_last 856000000 (856000000 * 2) 64 ltac:(lia)) as L. cbn [Nat.sub] in L. rewrite L in B.
  replace (Rabs ((856000000 * 2 - 856000000) / 33 - 1)) with (856000000 / 33 - 1) in B by (rewrite Rabs_pos_eq; lra).
  replace (856000000 * 2) with 1712000000 in B by lra. exact B.
Qed.
Example C100_default_case : exists w, beam_factory "linear" None 5 true "b_$(corr)_$(reim)" (fun _ => 1 / 2) = Ok w.
Proof.
  change (exists w, beam_factory "linear" (Some (64%nat, linspace 856000000 (856000000 * 2) 64)) 5 true "b_$(corr)_$(reim)" (fun _ => 1 / 2) = Ok w).
  destruct (C100_accepted "linear" 64 (linspace 856000000 (856000000 * 2) 64) 5 "b_$(corr)_$(reim)" (fun _ => 1 / 2) _ (or_introl eq_refl) eq_refl ltac:(lia) ltac:(lia)
    ltac:(rewrite lin0, lin_last by lia; lra) ltac:(intros i; lra) eq_refl) as (w & E & _). exists w. exact E.
Qed.
Print Assumptions C100_default_band.
