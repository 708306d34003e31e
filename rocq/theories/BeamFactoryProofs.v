From Coq Require Import Reals String ZArith Lra Lia Psatz.
From Verif Require Import Prelude AxesModel AxesSpec AxesProofs AxesProofs2 BeamFactoryModel BeamFactorySpec.
Open Scope nat_scope.

Section Header.
  Variables (n : nat) (cv cd g0 delta : R) (g : arr R).
  Let h := lookup (cards n cv cd 33 g0 delta g).
  Lemma gfreq : irregular h "FREQ" 33 = Some (map (fun i => HReal (g i)) (seq 0 33)).
  Proof. vm_compute. reflexivity. Qed.
  Lemma no_gx : 1 <= n -> irregular h "X" n = None.
  Proof. intros H. apply irregular_none. exists 1. split; [lia | reflexivity]. Qed.
  Lemma no_gy : 1 <= n -> irregular h "Y" n = None.
  Proof. intros H. apply irregular_none. exists 1. split; [lia | reflexivity]. Qed.
  Definition fa0 : fits_axes :=
    {| naxis := [Some (HInt (Z.of_nat n)); Some (HInt (Z.of_nat n)); Some (HInt 33)]; ctype := ["X"; "Y"; "FREQ"]%string;
       crval := [HReal cv; HReal cv; HReal g0]; crpix := [(IZR (1 + Z.of_nat (n / 2)) - 1)%R; (IZR (1 + Z.of_nat (n / 2)) - 1)%R; (1 - 1)%R];
       cdelt := [HReal cd; HReal cd; HReal delta]; cunit := ["DEG"; "DEG"; ""]%string |}.
  Lemma init_ok : fits_init h = Ok fa0.
  Proof. reflexivity. Qed.
  Definition sky (j : nat) : R := ((INR j - (IZR (1 + Z.of_nat (n / 2)) - 1)) * deg2rad cd + deg2rad cv)%R.
  Lemma compr_map (l : list nat) : comprehend as_num (map (fun i => HReal (g i)) l) = Ok (map g l).
  Proof. induction l as [|i l IH]; cbn; [reflexivity |]. rewrite IH. reflexivity. Qed.
  Lemma axis0 : 1 <= n -> make_axis h fa0 0 = Ok {| a_ctype := "X"; a_cunit := "RAD"; a_size := n; a_grid := sky |}.
  Proof.
    intros H. unfold make_axis. cbn [nth naxis ctype cunit crval cdelt crpix fa0 as_int bind]. rewrite Nat2Z.id, no_gx by exact H. reflexivity.
  Qed.
  Lemma axis1 : 1 <= n -> make_axis h fa0 1 = Ok {| a_ctype := "Y"; a_cunit := "RAD"; a_size := n; a_grid := sky |}.
  Proof.
    intros H. unfold make_axis. cbn [nth naxis ctype cunit crval cdelt crpix fa0 as_int bind]. rewrite Nat2Z.id, no_gy by exact H. reflexivity.
  Qed.
  Lemma axis2 : make_axis h fa0 2 = Ok {| a_ctype := "FREQ"; a_cunit := ""; a_size := 33; a_grid := fun j => nth j (map g (seq 0 33)) 0%R |}.
  Proof.
    unfold make_axis. cbn [nth naxis ctype cunit crval cdelt crpix fa0 as_int bind]. change (Z.to_nat 33) with 33. rewrite gfreq.
    rewrite compr_map. reflexivity.
  Qed.
  Lemma grids_header : 1 <= n -> exists gl gm gf, beam_grids (Some h) AxNone AxNone = Ok ((1, n, gl), (2, n, gm), (3, 33, gf)) /\
    (forall j, gl j = sky j) /\ (forall j, gm j = sky j) /\ (forall k, k < 33 -> gf k = g k).
  Proof.
    intros H. unfold beam_grids, beam_axes. rewrite init_ok. cbn [bind]. change (seq 0 (List.length (ctype fa0))) with [0; 1; 2].
    cbn [comprehend]. rewrite axis0, axis1, axis2 by exact H. cbn [bind]. do 3 eexists. split; [reflexivity |]. split; [|split].
    - intros j. cbn [a_grid snd]. lra.
    - intros j. cbn [a_grid snd]. lra.
    - intros k Hk. cbn [a_grid]. rewrite (nth_indep _ 0%R (g 0)) by (rewrite map_length, seq_length; exact Hk). rewrite map_nth, seq_nth by exact Hk. reflexivity.
  Qed.
End Header.

(* ---------- the coordinates ---------- *)
Open Scope R_scope.
Lemma linspace_at a b n i : n <> 1%nat -> linspace a b n i = a + INR i * ((b - a) / INR (n - 1)).
Proof. intros H. unfold linspace. apply Nat.eqb_neq in H. rewrite H. reflexivity. Qed.
Lemma sky_coords n j : (3 <= n)%nat ->
  sky n (linspace (- extent_deg / 2) (extent_deg / 2) n (n / 2)%nat) (extent_deg / INR (n - 1)) j = deg2rad (linspace (- extent_deg / 2) (extent_deg / 2) n j).
Proof.
  intros H. rewrite !linspace_at by lia. unfold sky, deg2rad, extent_deg. rewrite plus_IZR, <- INR_IZR_INZ.
  assert (N : INR (n - 1) <> 0) by (apply not_0_INR; lia). set (q := INR (n / 2)%nat). field. exact N.
Qed.
Lemma sky_grid_coords n (g : arr R) : (3 <= n)%nat -> (forall j, g j = deg2rad (linspace (- extent_deg / 2) (extent_deg / 2) n j)) -> sky_grid n g.
Proof.
  intros H E. assert (N : INR (n - 1) <> 0) by (apply not_0_INR; lia).
  split; [|split]; [| |intros i Hi]; rewrite !E, !linspace_at by lia; unfold deg2rad, extent_deg.
  - cbn [INR]. field. exact N.
  - field. exact N.
  - rewrite S_INR. field. exact N.
Qed.
Lemma monotone_ok n g : monotone n g = true <-> forall i, (S i < n)%nat -> g i <= g (S i).
Proof.
  induction n as [|n IH]; [split; [lia | reflexivity] |]. destruct n as [|m]; [split; [lia | reflexivity] |].
  change (monotone (S (S m)) g) with ((if Rle_dec (g m) (g (S m)) then true else false) && monotone (S m) g)%bool. rewrite andb_true_iff, IH.
  destruct (Rle_dec (g m) (g (S m))) as [L|L]; split.
  - intros (_ & A) i Hi. destruct (Nat.eq_dec i m) as [->|]; [exact L | apply A; lia].
  - intros A. split; [reflexivity |]. intros i Hi. apply A. lia.
  - intros (A & _). discriminate.
  - intros A. exfalso. apply L. apply A. lia.
Qed.
Lemma chain g : (forall i, (i < 32)%nat -> g i <= g (S i)) -> forall j i, (i <= j)%nat -> (j <= 32)%nat -> g i <= g j.
Proof.
  intros H. induction j as [|j IH]; intros i Hi Hj; [replace i with 0%nat by lia; apply Rle_refl |].
  destruct (Nat.eq_dec i (S j)) as [->|]; [apply Rle_refl |]. apply Rle_trans with (g j); [apply IH; lia | apply H; lia].
Qed.

(* ---------- one call ---------- *)
Definition delta_of (a b : R) : R := (b - a) / 33 - 1.
Definition freq_of (a b : R) (random : arr R) : arr R := fun i => linspace a b 33 i +
  (if (Nat.eqb i 0 || Nat.eqb i 32)%bool then 0 else (random i - 1 / 2) * (1 / 10 * delta_of a b)).
Definition freqs (frequency : option (nat * arr R)) : nat * arr R := match frequency with Some f => f | None => default_frequency end.
Definition ids_of (pol : string) : list Z := if String.eqb pol "linear" then [9; 10; 11; 12]%Z else [5; 6; 7; 8]%Z.
Lemma lin0 a b n : linspace a b n 0%nat = a.
Proof. unfold linspace. destruct (Nat.eqb n 1); [reflexivity |]. cbn [INR]. ring. Qed.
Lemma lin_last a b n : (2 <= n)%nat -> linspace a b n (n - 1)%nat = b.
Proof. intros H. rewrite linspace_at by lia. field. apply not_0_INR. lia. Qed.
Lemma lin32 a b i : linspace a b 33 i = a + INR i * ((b - a) / 32).
Proof. rewrite linspace_at by lia. replace (INR (33 - 1)) with 32 by (cbn; lra). reflexivity. Qed.
Lemma inr33 : INR ngrid = 33. Proof. cbn. lra. Qed.

(* the call with its computed parts named *)
Lemma factory_eq pol frequency npix known schema random : beam_factory pol frequency npix known schema random =
  if negb (Z.eqb (npix mod 2) 1) then Raise ValueError else
  let nf := fst (freqs frequency) in let fr := snd (freqs frequency) in
  if Nat.eqb nf 0 then Raise IndexError else
  let a := fr 0%nat in let b := fr (nf - 1)%nat in
  if negb (String.eqb pol "linear" || String.eqb pol "circular") then Raise ValueError else
  if Z.ltb npix 0 then Raise ValueError else
  let n := Z.to_nat npix in
  if Nat.eqb n 1 then Raise ZeroDivision else
  if negb known then Raise KeyError else
  if negb (monotone 33 (freq_of a b random)) then Raise AssertionError else
  do! names <- beam_filenames schema (ids_of pol);
  let coords := linspace (- extent_deg / 2) (extent_deg / 2) n in
  let c i := deg2rad (coords i) in
  Ok {| w_header := lookup (cards n (coords (n / 2)%nat) (extent_deg / INR (n - 1)) 33 a (delta_of a b) (freq_of a b random));
        w_nfreq := 33; w_npix := n;
        w_data := fun k i j => cos (Rmin (65 * freq_of a b random k * (1 / 1000000000) * sqrt (c i ^ 2 + c j ^ 2)) (10881 / 10000)) ^ 3; w_names := names |}.
Proof.
  unfold beam_factory. fold (freqs frequency). destruct (negb (Z.eqb (npix mod 2) 1)); [reflexivity |]. destruct (freqs frequency) as (nf, fr). cbn [fst snd].
  destruct (Nat.eqb nf 0); [reflexivity |]. unfold ids_of. rewrite inr33. change (ngrid - 1)%nat with 32%nat. change ngrid with 33%nat.
  assert (L : linspace (fr 0%nat) (fr (nf - 1)%nat) 33 32%nat = fr (nf - 1)%nat) by (apply (lin_last _ _ 33); lia). rewrite L, lin0.
  destruct (String.eqb pol "linear"); cbn [orb negb bind]; [reflexivity |]. destruct (String.eqb pol "circular"); reflexivity.
Qed.

Lemma freq0 a b random : freq_of a b random 0%nat = a.
Proof. unfold freq_of. cbn [Nat.eqb orb]. rewrite lin0. ring. Qed.
Lemma freq32 a b random : freq_of a b random 32%nat = b.
Proof. unfold freq_of. cbn [Nat.eqb orb]. change 32%nat with (33 - 1)%nat. rewrite lin_last by lia. ring. Qed.
Lemma jitter_bound a b random i : (forall i, 0 <= random i <= 1) -> Rabs (freq_of a b random i - (a + INR i * ((b - a) / 32))) <= 1 / 20 * Rabs (delta_of a b).
Proof.
  intros U. unfold freq_of. rewrite lin32. set (d := delta_of a b). match goal with |- Rabs ?x <= _ => replace x with (if (Nat.eqb i 0 || Nat.eqb i 32)%bool then 0 else (random i - 1 / 2) * (1 / 10 * d)) by ring end.
  destruct (_ || _)%bool; [rewrite Rabs_R0; pose proof (Rabs_pos d); lra |]. rewrite Rabs_mult, (Rabs_mult (1 / 10)).
  rewrite (Rabs_right (1 / 10)) by lra. specialize (U i). pose proof (Rabs_pos d).
  assert (Rabs (random i - 1 / 2) <= 1 / 2) by (apply Rabs_le; lra). pose proof (Rabs_pos (random i - 1 / 2)). nra.
Qed.
(* a bandwidth of 3 Hz is enough for the assertion *)
Lemma mono_ok a b random : 3 <= b - a -> (forall i, 0 <= random i <= 1) -> monotone 33 (freq_of a b random) = true.
Proof.
  intros W U. apply monotone_ok. intros i Hi. pose proof (jitter_bound a b random i U) as A. pose proof (jitter_bound a b random (S i) U) as B.
  rewrite S_INR in B. assert (V : forall x d, Rabs x <= d -> - d <= x <= d) by (intros x d; unfold Rabs; destruct (Rcase_abs x); lra).
  apply V in A. apply V in B.
  assert (D : 1 / 10 * Rabs (delta_of a b) <= (b - a) / 32).
  { unfold delta_of. unfold Rabs. destruct (Rcase_abs _); lra. }
  lra.
Qed.

Lemma factory_ok pol frequency npix known schema random w : beam_factory pol frequency npix known schema random = Ok w ->
  let nf := fst (freqs frequency) in let a := snd (freqs frequency) 0%nat in let b := snd (freqs frequency) (nf - 1)%nat in let n := Z.to_nat npix in
  let c := fun i => deg2rad (linspace (- extent_deg / 2) (extent_deg / 2) n i) in
  (3 <= n)%nat /\ Nat.Odd n /\ nf <> 0%nat /\ w_npix w = n /\ w_nfreq w = 33%nat /\
  w_header w = lookup (cards n (linspace (- extent_deg / 2) (extent_deg / 2) n (n / 2)%nat) (extent_deg / INR (n - 1)) 33 a (delta_of a b) (freq_of a b random)) /\
  (forall i, (i < 32)%nat -> freq_of a b random i <= freq_of a b random (S i)) /\
  (forall k i j, w_data w k i j = westerbork (freq_of a b random k) (c j) (c i)).
Proof.
  rewrite factory_eq. destruct (Z.eqb_spec (npix mod 2) 1) as [Od|]; [|discriminate]. cbn [negb]. cbv zeta.
  destruct (Nat.eqb_spec (fst (freqs frequency)) 0) as [|N0]; [discriminate |].
  destruct (negb _); [discriminate |]. destruct (Z.ltb_spec npix 0) as [|Pos]; [discriminate |].
  destruct (Nat.eqb_spec (Z.to_nat npix) 1) as [|N1]; [discriminate |]. destruct (negb known); [discriminate |].
  destruct (monotone 33 _) eqn:M; [|discriminate]. cbn [negb].
  destruct (beam_filenames schema (ids_of pol)) as [names|]; [|discriminate]. cbn [bind]. intros E. injection E as <-. cbn [w_npix w_nfreq w_header w_data].
  assert (O : Nat.Odd (Z.to_nat npix)).
  { exists (Z.to_nat (npix / 2)). pose proof (Z.div_mod npix 2 ltac:(lia)). assert (0 <= npix / 2)%Z by (apply Z.div_pos; lia). lia. }
  rewrite monotone_ok in M. repeat (split; [try reflexivity; try assumption |]).
  - destruct O as (q & Hq). lia.
  - intros i Hi. apply M. lia.
  - intros k i j. unfold westerbork. cbn [pow]. match goal with |- cos (Rmin (?p * ?f * ?q * sqrt ?x) _) * _ = cos (Rmin (_ * sqrt ?y) _) * _ =>
      replace x with y by ring; replace (p * f * q) with (p * (f / 1000000000)) by lra end. reflexivity.
Qed.
Lemma grid_mirror n (g : arr R) i : sky_grid n g -> (i < n)%nat -> (2 <= n)%nat -> g (n - 1 - i)%nat = - g i.
Proof.
  intros (F & L & St) Hi Hn.
  assert (A : forall j, (j < n)%nat -> g j = - (3 / 2) * (PI / 180) + INR j * (3 / INR (n - 1) * (PI / 180))).
  { induction j as [|j IH]; intros Hj; [rewrite F; cbn [INR]; ring |]. specialize (St j Hj). rewrite S_INR. rewrite IH in St by lia. lra. }
  rewrite !A by lia. rewrite (minus_INR (n - 1) i) by lia. field. apply not_0_INR. lia.
Qed.
Lemma grid_centre n (g : arr R) q : sky_grid n g -> n = (2 * q + 1)%nat -> (2 <= n)%nat -> g q = 0.
Proof.
  intros G E H. pose proof (grid_mirror n g q G ltac:(lia) H) as A. replace (n - 1 - q)%nat with q in A by lia. lra.
Qed.
Lemma west_swap f l m : westerbork f l m = westerbork f m l.
Proof. unfold westerbork. rewrite (Rplus_comm (l * l)). reflexivity. Qed.
Lemma west_neg f l m : westerbork f (- l) m = westerbork f l m.
Proof. unfold westerbork. replace (- l * - l) with (l * l) by ring. reflexivity. Qed.
Lemma west_centre f : westerbork f 0 0 = 1.
Proof.
  unfold westerbork. replace (0 * 0 + 0 * 0) with 0 by ring. rewrite sqrt_0, Rmult_0_r. rewrite Rmin_left by lra. rewrite cos_0. ring.
Qed.
Lemma cos_cube x y : 0 <= x -> x <= y -> y <= 10881 / 10000 -> cos y ^ 3 <= cos x ^ 3.
Proof.
  intros A B C. pose proof PI2_3_2. assert (cos y <= cos x) by (apply cos_decr_1; lra). assert (0 <= cos y) by (apply cos_ge_0; lra).
  apply pow_incr. lra.
Qed.
Lemma west_mono f f' l m : 0 <= f -> f <= f' -> westerbork f' l m <= westerbork f l m.
Proof.
  intros A B. unfold westerbork. pose proof (sqrt_pos (l * l + m * m)) as Sq. set (r := sqrt _) in *.
  assert (0 <= 65 * (f / 1000000000) * r) by (apply Rmult_le_pos; lra).
  assert (65 * (f / 1000000000) * r <= 65 * (f' / 1000000000) * r) by (apply Rmult_le_compat_r; lra).
  apply cos_cube; unfold Rmin; repeat match goal with |- context [Rle_dec ?a ?b] => destruct (Rle_dec a b) end; lra.
Qed.
Lemma west_range f l m : 0 <= f -> cos (10881 / 10000) ^ 3 <= westerbork f l m <= 1.
Proof.
  intros A. unfold westerbork. pose proof (sqrt_pos (l * l + m * m)) as Sq. set (r := sqrt _) in *.
  assert (0 <= 65 * (f / 1000000000) * r) by (apply Rmult_le_pos; lra). split.
  - apply cos_cube; unfold Rmin; repeat match goal with |- context [Rle_dec ?a ?b] => destruct (Rle_dec a b) end; lra.
  - replace 1 with (cos 0 ^ 3) by (rewrite cos_0; ring). apply cos_cube; unfold Rmin; repeat match goal with |- context [Rle_dec ?a ?b] => destruct (Rle_dec a b) end; lra.
Qed.
