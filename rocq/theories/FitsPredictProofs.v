From Coq Require Import Reals String Lra Lia.
From Verif Require Import Prelude CRing CplxR RimeModel RimeSpec DftModel DftSpec DftProofs KernProofs2 FitsPredictModel FitsPredictSpec.
Open Scope nat_scope.

(* ---------- sums over the components ---------- *)
Lemma map_nth_self {A} (l : list A) d : map (fun s => nth s l d) (seq 0 (List.length l)) = l.
Proof.
  induction l as [|a l IH]; [reflexivity |]. cbn [List.length seq map]. f_equal. rewrite <- seq_shift, map_map. exact IH.
Qed.
Lemma csum_nth (F : nat -> RC) (l : list nat) : csum (List.length l) (fun s => F (nth s l 0)) = lcsum (map F l).
Proof. rewrite (csum_list RC_laws). rewrite <- (map_map (fun s => nth s l 0) F). rewrite map_nth_self. reflexivity. Qed.
Lemma lcsum_filter (F : nat -> RC) keep l : (forall p, In p l -> keep p = false -> F p = c0) -> lcsum (map F (filter keep l)) = lcsum (map F l).
Proof.
  induction l as [|p l IH]; intros H; [reflexivity |]. cbn [filter map lcsum].
  assert (H' : forall q, In q l -> keep q = false -> F q = c0) by (intros q I; apply H; right; exact I).
  destruct (keep p) eqn:E; cbn [map lcsum]; rewrite IH by exact H'; [reflexivity |].
  rewrite (H p (or_introl eq_refl) E). apply injective_projections; cbn; ring.
Qed.
Lemma neq_spec x y : neq x y = true <-> x <> y.
Proof. unfold neq. destruct (Req_EM_T x y); split; intros; congruence || contradiction. Qed.
Lemma nonzero_in nchan npix cube p : In p (nonzero nchan npix cube) <-> p < npix /\ exists f, f < nchan /\ cube f p <> 0%R.
Proof.
  unfold nonzero. rewrite filter_In, in_seq, existsb_exists. split.
  - intros (A & f & B & C). split; [lia |]. exists f. apply in_seq in B. apply neq_spec in C. split; [lia | exact C].
  - intros (A & f & B & C). split; [lia |]. exists f. split; [apply in_seq; lia | apply neq_spec; exact C].
Qed.
Lemma nonzero_nodup nchan npix cube : NoDup (nonzero nchan npix cube).
Proof. apply NoDup_filter, seq_NoDup. Qed.

(* ---------- coordinates ---------- *)
Lemma steps_nth refpix delta n j : j < n -> nth j (steps refpix delta n) 0%R = ((1 - refpix + INR j) * delta)%R.
Proof.
  intros H. unfold steps. rewrite (nth_indep _ 0%R ((1 - refpix + INR 0) * delta)%R) by (rewrite map_length, seq_length; exact H).
  rewrite (map_nth (fun j => ((1 - refpix + INR j) * delta)%R)), seq_nth by exact H. reflexivity.
Qed.
Lemma insert_first x l : (forall y, In y l -> (x <= y)%R) -> insert x l = x :: l.
Proof. intros H. destruct l as [|y l]; [reflexivity |]. cbn. destruct (Rle_dec x y) as [|N]; [reflexivity |]. destruct N. apply H. left. reflexivity. Qed.
Lemma insert_last x l : (forall y, In y l -> (y < x)%R) -> insert x l = l ++ [x].
Proof.
  induction l as [|y l IH]; intros H; [reflexivity |]. cbn. destruct (Rle_dec x y) as [L|]; [specialize (H y (or_introl eq_refl)); lra |].
  rewrite IH; [reflexivity |]. intros z I. apply H. right. exact I.
Qed.
Lemma sort_up (f : nat -> R) n : forall k, (forall i j, i < j -> (f i <= f j)%R) -> np_sort (map f (seq k n)) = map f (seq k n).
Proof.
  induction n as [|n IH]; intros k M; [reflexivity |]. cbn [seq map np_sort]. rewrite IH by exact M. apply insert_first.
  intros y I. apply in_map_iff in I. destruct I as (i & <- & I). apply in_seq in I. apply M. lia.
Qed.
Lemma sort_down (f : nat -> R) n : forall k, (forall i j, i < j -> (f j < f i)%R) -> np_sort (map f (seq k n)) = rev (map f (seq k n)).
Proof.
  induction n as [|n IH]; intros k M; [reflexivity |]. cbn [seq map np_sort rev]. rewrite IH by exact M. apply insert_last.
  intros y I. apply in_rev in I. apply in_map_iff in I. destruct I as (i & <- & I). apply in_seq in I. apply M. lia.
Qed.
Lemma rad_pos x : (0 <= x -> 0 <= to_rad x)%R /\ (x < 0 -> to_rad x < 0)%R.
Proof. unfold to_rad. pose proof PI_RGT_0. split; intros; nra. Qed.
Lemma l_up h j : (0 <= cdelt1 h)%R -> j < naxis1 h -> nth j (l_coord h) 0%R = column_l h j.
Proof.
  intros P H. unfold l_coord, steps. rewrite sort_up.
  - fold (steps (crpix1 h) (to_rad (cdelt1 h)) (naxis1 h)). rewrite steps_nth by exact H. unfold column_l, to_rad. field.
  - intros a b L. apply Rmult_le_compat_r; [apply rad_pos; exact P |]. apply lt_INR in L. lra.
Qed.
Lemma l_down h j : (cdelt1 h < 0)%R -> j < naxis1 h -> nth j (l_coord h) 0%R = column_l h (naxis1 h - 1 - j).
Proof.
  intros P H. unfold l_coord, steps. rewrite sort_down.
  - fold (steps (crpix1 h) (to_rad (cdelt1 h)) (naxis1 h)).
    assert (Len : List.length (steps (crpix1 h) (to_rad (cdelt1 h)) (naxis1 h)) = naxis1 h) by (unfold steps; rewrite map_length; apply seq_length).
    rewrite rev_nth by (rewrite Len; exact H). rewrite Len, steps_nth by lia. replace (naxis1 h - S j) with (naxis1 h - 1 - j) by lia.
    unfold column_l, to_rad. field.
  - intros a b L. apply lt_INR in L. destruct (rad_pos (cdelt1 h)) as (_ & Q). specialize (Q P). nra.
Qed.
Lemma m_at h i : i < naxis2 h -> nth i (m_coord h) 0%R = row_m h i.
Proof. intros H. unfold m_coord. rewrite steps_nth by exact H. unfold row_m, to_rad. field. Qed.

(* ---------- the visibilities of the components ---------- *)
Definition brightness_of (h : fits_header) (cube : arr2 R) : nat -> nat -> nat -> R := fun f i j => cube f (i * naxis1 h + j).
Lemma alone_length h nchan cube : 1 <= naxis1 h -> not_alone h nchan (brightness_of h cube) -> List.length (nonzero nchan (naxis1 h * naxis2 h) cube) <> 1.
Proof.
  intros P N E. pose proof (nonzero_in nchan (naxis1 h * naxis2 h) cube) as I. destruct (nonzero _ _ _) as [|p [|q l]]; try discriminate.
  destruct (proj1 (I p) (or_introl eq_refl)) as (Hp & f & Hf & Nz).
  assert (Ep : p = (p / naxis1 h) * naxis1 h + p mod naxis1 h) by (pose proof (Nat.div_mod p (naxis1 h) ltac:(lia)); lia).
  assert (L : lit h nchan (brightness_of h cube) (p / naxis1 h) (p mod naxis1 h)).
  { split; [apply Nat.div_lt_upper_bound; lia |]. split; [apply Nat.mod_upper_bound; lia |]. exists f. split; [exact Hf |]. unfold brightness_of. rewrite <- Ep. exact Nz. }
  destruct (N _ _ L) as (i & j & (Hi & Hj & f' & Hf' & Nz') & D). apply D.
  assert (J : In (i * naxis1 h + j) [p]) by (apply I; split; [nia | exists f'; split; assumption]).
  destruct J as [J|[]]. f_equal.
  - rewrite J. rewrite Nat.div_add_l by lia. rewrite Nat.div_small by exact Hj. lia.
  - rewrite J. rewrite Nat.add_comm, Nat.mod_add by lia. rewrite Nat.mod_small by exact Hj. reflexivity.
Qed.
Definition l_of (h : fits_header) (j : nat) : R := nth j (l_coord h) 0%R.
Lemma spread_eq (vis : arr3 RC) ncorr V : ncorr = 1 \/ ncorr = 2 \/ ncorr = 4 ->
  (if Nat.eqb ncorr 1 then Ok vis else if Nat.eqb ncorr 4 then Ok (fun r f c => match c with 0 | 3 => vis r f 0 | _ => c0 end)
   else if Nat.eqb ncorr 2 then Ok (fun r f c => vis r f 0) else Raise ValueError) = Ok V ->
  forall r f c, c < ncorr -> V r f c = unpolarised ncorr (vis r f 0) c.
Proof.
  intros [-> | [-> | ->]] E; cbn in E; injection E as <-; intros r f c H.
  - replace c with 0 by lia. reflexivity.
  - destruct c as [|[|]]; [reflexivity | reflexivity | lia].
  - destruct c as [|[|[|[|]]]]; reflexivity || lia.
Qed.
Lemma predict_value ok h data nchan ms freq rows uvw ncorr cube : in_degrees h -> 1 <= naxis1 h -> 1 <= nchan -> ncorr = 1 \/ ncorr = 2 \/ ncorr = 4 ->
  model_cube ok h data nchan ms = Ok cube -> not_alone h nchan (brightness_of h cube) ->
  exists V, predict_fits ok h data nchan ms (Some [nchan]) freq rows uvw ncorr = Ok V /\
    forall r f c, r < list_sum rows -> f < nchan -> c < ncorr -> V r f c = unpolarised ncorr (image_vis h (brightness_of h cube) (l_of h) uvw freq r f) c.
Proof.
  intros (U1 & U2) P1 Pc Hn Hc Na. unfold predict_fits, components.
  replace (degrees (cunit1 h)) with true by (destruct U1 as [-> | ->]; reflexivity). replace (degrees (cunit2 h)) with true by (destruct U2 as [-> | ->]; reflexivity).
  cbn [negb]. rewrite Hc. cbn [bind]. replace (Nat.eqb nchan 0) with false by (symmetry; apply Nat.eqb_neq; lia).
  pose proof (alone_length h nchan cube P1 Na) as L1. apply Nat.eqb_neq in L1. rewrite L1. set (idx := nonzero _ _ _) in *.
  set (img := fun (s f c : nat) => ofR (cube f (nth s idx 0))). set (lm := fun s d : nat => _).
  destruct (dask_im_to_vis_eq rows (List.length idx) [nchan] [1] img uvw lm freq "fourier" (-1)%R sgn_fourier) as (X & Y & EX & EY & XY).
  cbn [bind]. rewrite EX. cbn [bind].
  destruct (im_to_vis_value (list_sum rows) (List.length idx) (list_sum [nchan]) (list_sum [1]) img uvw lm freq "fourier" (-1)%R sgn_fourier) as (Y' & EY' & HY).
  rewrite EY in EY'. injection EY' as <-.
  assert (Val : forall r f, r < list_sum rows -> f < nchan -> X r f 0 = image_vis h (brightness_of h cube) (l_of h) uvw freq r f).
  { intros r f Hr Hf. rewrite XY, HY by (cbn; lia). unfold image_vis. rewrite <- (csum_pairs RC_laws).
    set (F := fun p : nat => cmul (cis (- delay (l_of h (p mod naxis1 h)) (row_m h (p / naxis1 h)) (uvw r 0) (uvw r 1) (uvw r 2) (freq f))) (ofR (cube f p)) : RC).
    transitivity (csum (K := RC) (List.length idx) (fun s => F (nth s idx 0))).
    - apply csum_ext. intros s Hs. unfold F, img, src_delay. f_equal. f_equal.
      assert (In (nth s idx 0) idx) as I by (apply nth_In; exact Hs). apply nonzero_in in I. destruct I as (Hp & _).
      unfold lm. rewrite m_at by (apply Nat.div_lt_upper_bound; lia). unfold l_of. ring.
    - rewrite csum_nth. unfold idx, nonzero. rewrite lcsum_filter.
      + rewrite <- (csum_list RC_laws). rewrite Nat.mul_comm. apply csum_ext. intros p Hp. unfold F, brightness_of.
        do 2 f_equal. f_equal. pose proof (Nat.div_mod p (naxis1 h) ltac:(lia)). lia.
      + intros p _ E. unfold F. replace (cube f p) with 0%R; [apply injective_projections; cbn; ring |].
        destruct (Req_EM_T (cube f p) 0) as [Z|Z]; [symmetry; exact Z |]. exfalso.
        assert (T : existsb (fun f => neq (cube f p) 0%R) (seq 0 nchan) = true) by (apply existsb_exists; exists f; split; [apply in_seq; lia | apply neq_spec; exact Z]).
        congruence. }
  assert (exists V, (if Nat.eqb ncorr 1 then Ok X else if Nat.eqb ncorr 4 then Ok (fun r f c => match c with 0 | 3 => X r f 0 | _ => c0 end)
   else if Nat.eqb ncorr 2 then Ok (fun r f c => X r f 0) else Raise ValueError) = Ok V) as (V & EV).
  { destruct Hn as [-> | [-> | ->]]; eexists; reflexivity. }
  exists V. split; [exact EV |]. intros r f c Hr Hf Hcc. rewrite (spread_eq X ncorr V Hn EV r f c Hcc). rewrite Val by assumption. reflexivity.
Qed.
Lemma vis_ext h B B' l l' uvw freq r f : (forall i j, i < naxis2 h -> j < naxis1 h -> B f i j = B' f i j) -> (forall j, j < naxis1 h -> l j = l' j) ->
  image_vis h B l uvw freq r f = image_vis h B' l' uvw freq r f.
Proof. intros A C. unfold image_vis. apply csum_ext. intros i Hi. apply csum_ext. intros j Hj. rewrite A, C by assumption. reflexivity. Qed.
Lemma alone_ext h nchan B B' : (forall f i j, f < nchan -> i < naxis2 h -> j < naxis1 h -> B f i j = B' f i j) -> not_alone h nchan B -> not_alone h nchan B'.
Proof.
  intros E N i j (Hi & Hj & f & Hf & Nz). destruct (N i j) as (i' & j' & (Hi' & Hj' & f' & Hf' & Nz') & D).
  - split; [exact Hi |]. split; [exact Hj |]. exists f. split; [exact Hf |]. rewrite E by assumption. exact Nz.
  - exists i', j'. split; [|exact D]. split; [exact Hi' |]. split; [exact Hj' |]. exists f'. split; [exact Hf' |]. rewrite <- E by assumption. exact Nz'.
Qed.
(* columns counted from the other end *)
Lemma csum_rev n (f : nat -> RC) : csum n (fun j => f (n - 1 - j)) = csum n f.
Proof.
  apply (csum_perm RC_laws n f (fun j => n - 1 - j)). clear f. assert (R : map (fun j => n - 1 - j) (seq 0 n) = rev (seq 0 n)).
  { induction n as [|n IH]; [reflexivity |]. rewrite seq_S at 2. rewrite rev_app_distr. cbn [rev app seq map Nat.add]. f_equal; [lia |].
    rewrite <- seq_shift, map_map. rewrite <- IH. apply map_ext. intros a. lia. }
  rewrite R. apply Permutation.Permutation_sym, Permutation.Permutation_rev.
Qed.

(* ---------- the cube ---------- *)
Lemma bands_axis h nband fr : bands h nband fr -> exists g, freq_axis h = Ok (nband, g, 1) /\ forall k, g k = fr k.
Proof.
  intros [E N | N3 E N]; unfold freq_axis.
  - rewrite E, String.eqb_refl, N. eexists. split; [reflexivity |]. intros k. cbv beta. ring.
  - apply String.eqb_neq in N3. rewrite N3, E, String.eqb_refl, N. eexists. split; [reflexivity |]. intros k. cbv beta. ring.
Qed.
Lemma existsb_false {A} (p : A -> bool) l : (forall a, In a l -> p a = false) -> existsb p l = false.
Proof. induction l as [|a l IH]; intros H; [reflexivity |]. cbn. rewrite (H a (or_introl eq_refl)). apply IH. intros b I. apply H. right. exact I. Qed.
Lemma same_differ nchan ms fr : (forall i, i < nchan -> ms i = fr i) -> differ nchan ms nchan fr = false.
Proof.
  intros H. unfold differ. rewrite Nat.eqb_refl. apply existsb_false. intros i I. apply in_seq in I. unfold neq. destruct (Req_EM_T (ms i) (fr i)) as [|N]; [reflexivity |].
  destruct N. apply H. lia.
Qed.
Lemma cube_same ok h data nchan ms fr : bands h nchan fr -> (forall i, i < nchan -> ms i = fr i) ->
  exists cube, model_cube ok h data nchan ms = Ok cube /\ forall f i j, brightness_of h cube f i j = pixel h data f i j.
Proof.
  intros B S. destruct (bands_axis h nchan fr B) as (g & E & G). unfold model_cube. rewrite E. cbn [bind Nat.ltb Nat.leb].
  rewrite same_differ by (intros i Hi; rewrite G; apply S; exact Hi). rewrite Nat.mul_1_r, Nat.eqb_refl. cbn [negb]. eexists. split; [reflexivity |].
  intros f i j. unfold brightness_of, pixel. f_equal. ring.
Qed.
(* the interpolator *)
Lemma rlt_spec x y : rlt x y = true <-> (x < y)%R.
Proof. unfold rlt. destruct (Rlt_dec x y); split; intros; congruence || contradiction || assumption. Qed.
Lemma rlt_false x y : rlt x y = false <-> (y <= x)%R.
Proof. unfold rlt. destruct (Rlt_dec x y); split; intros; try congruence; lra. Qed.
Lemma count_prefix (P : nat -> bool) n k : k <= n -> (forall i, i < k -> P i = true) -> (forall i, k <= i < n -> P i = false) -> List.length (filter P (seq 0 n)) = k.
Proof.
  intros H A B. replace n with (k + (n - k)) by lia. rewrite seq_app, filter_app, app_length.
  assert (E1 : filter P (seq 0 k) = seq 0 k).
  { assert (F : forall l, (forall a, In a l -> P a = true) -> filter P l = l) by (induction l as [|a l IH]; intros T; [reflexivity |]; cbn; rewrite (T a (or_introl eq_refl)); f_equal; apply IH; intros b I; apply T; right; exact I).
    apply F. intros a I. apply in_seq in I. apply A. lia. }
  assert (E2 : filter P (seq (0 + k) (n - k)) = []).
  { assert (F : forall l, (forall a, In a l -> P a = false) -> filter P l = []) by (induction l as [|a l IH]; intros T; [reflexivity |]; cbn; rewrite (T a (or_introl eq_refl)); apply IH; intros b I; apply T; right; exact I).
    apply F. intros a I. apply in_seq in I. apply B. lia. }
  rewrite E1, E2, seq_length. cbn. lia.
Qed.
Lemma line_up n g v x : 2 <= n -> (forall i j, i < j -> j < n -> (g i < g j)%R) -> interpolates n g v x (line n g v x).
Proof.
  intros Hn M k Hk L1 L2. unfold line.
  assert (M01 : rlt (g 0) (g 1) = true) by (apply rlt_spec, M; lia).
  assert (Gk : (g k < g (S k))%R) by (apply M; lia).
  destruct (Rlt_le_dec x (g k)) as [Lo|L1'].
  { destruct L1 as [-> | L1]; [|lra].
    assert (C : before g n x = 0).
    { unfold before. rewrite M01. apply count_prefix; [lia | intros; lia |]. intros i Hi. apply rlt_false.
      destruct (Nat.eq_dec i 0) as [->|]; [lra |]. apply Rle_trans with (g 0); [lra | apply Rlt_le, M; lia]. }
    rewrite C. cbn [Nat.sub]. rewrite Nat.min_l by lia. field. lra. }
  destruct (Rlt_le_dec (g (S k)) x) as [Hi|L2'].
  { destruct L2 as [L2 | L2]; [|lra].
    assert (C : before g n x = n).
    { unfold before. rewrite M01. apply count_prefix; [lia | | intros; lia]. intros i Hi'. apply rlt_spec.
      destruct (Nat.eq_dec i (S k)) as [->|]; [lra |]. apply Rlt_trans with (g (S k)); [apply M; lia | lra]. }
    rewrite C. replace (Nat.min (n - 1) (n - 2)) with k by lia. field. lra. }
  clear L1 L2. rename L1' into L1, L2' into L2.
  destruct (Req_EM_T x (g k)) as [->|Nx].
  - (* at a point of the grid: k points before it *)
    assert (C : before g n (g k) = k).
    { unfold before. rewrite M01. apply count_prefix; [lia | |].
      - intros i Hi. apply rlt_spec, M; lia.
      - intros i Hi. apply rlt_false. destruct (Nat.eq_dec i k) as [->|]; [lra |]. apply Rlt_le, M; lia. }
    rewrite C. destruct k as [|k].
    + cbn [Nat.sub]. rewrite Nat.min_l by lia. replace (g 0%nat - g 0%nat)%R with 0%R by ring. unfold Rdiv. rewrite !Rmult_0_l. ring.
    + replace (S k - 1) with k by lia. rewrite Nat.min_l by lia. assert (G0 : (g k < g (S k))%R) by (apply M; lia).
      replace (g (S k) - g (S k))%R with 0%R by ring. unfold Rdiv. rewrite Rmult_0_l. field. lra.
  - assert (C : before g n x = S k).
    { unfold before. rewrite M01. apply count_prefix; [lia | |].
      - intros i Hi. apply rlt_spec. destruct (Nat.eq_dec i k) as [->|]; [lra |]. apply Rlt_trans with (g k); [apply M; lia | lra].
      - intros i Hi. apply rlt_false. destruct (Nat.eq_dec i (S k)) as [->|]; [lra |]. apply Rle_trans with (g (S k)); [lra |]. apply Rlt_le, M; lia. }
    rewrite C. replace (S k - 1) with k by lia. rewrite Nat.min_l by lia. field. lra.
Qed.
Lemma forallb_seq (P : nat -> bool) n : (forall i, i < n -> P i = true) -> forallb P (seq 0 n) = true.
Proof. intros H. apply forallb_forall. intros i I. apply in_seq in I. apply H. lia. Qed.
Lemma grid_up ok n g : (forall i, S i < n -> (g i < g (S i))%R) -> grid_ok ok n g = true.
Proof. intros H. unfold grid_ok, sorted_by. rewrite forallb_seq; [reflexivity |]. intros i Hi. apply rlt_spec, H. lia. Qed.
Lemma l_sorted h i : cdelt1 h <> 0%R -> S i < naxis1 h -> (nth i (l_coord h) 0 < nth (S i) (l_coord h) 0)%R.
Proof.
  intros N H. pose proof PI_RGT_0. destruct (Rlt_le_dec (cdelt1 h) 0) as [L|L].
  - rewrite !l_down by (assumption || lia). unfold column_l. replace (naxis1 h - 1 - i) with (S (naxis1 h - 1 - S i)) by lia. rewrite S_INR. nra.
  - rewrite !l_up by (assumption || lia). unfold column_l. rewrite S_INR. assert (0 < cdelt1 h)%R by lra. nra.
Qed.
Lemma m_sorted h i : (0 < cdelt2 h)%R -> S i < naxis2 h -> (nth i (m_coord h) 0 < nth (S i) (m_coord h) 0)%R.
Proof. intros N H. pose proof PI_RGT_0. rewrite !m_at by lia. unfold row_m. rewrite S_INR. nra. Qed.
Lemma bands_up h nband fr : bands h nband fr -> (fr 0%nat < fr 1%nat)%R -> forall i j, i < j -> (fr i < fr j)%R.
Proof.
  intros B P i j L. apply lt_INR in L. destruct B; cbn [INR] in P.
  - assert (0 < cdelt4 h)%R by lra. nra.
  - assert (0 < cdelt3 h)%R by lra. nra.
Qed.
Lemma cube_interp ok h data nchan ms nband fr : bands h nband fr -> 2 <= nband -> naxis1 h = naxis2 h -> 2 <= naxis1 h -> cdelt1 h <> 0%R -> (0 < cdelt2 h)%R -> (fr 0%nat < fr 1%nat)%R ->
  differ nchan ms nband fr = true ->
  exists cube, model_cube ok h data nchan ms = Ok cube /\
    forall f i j, interpolates nband fr (fun k => pixel h data k i j) (ms f) (brightness_of h cube f i j).
Proof.
  intros B Hb Sq H1 N1 P2 Pf D. destruct (bands_axis h nband fr B) as (g & E & G). unfold model_cube. rewrite E. cbn [bind Nat.ltb Nat.leb].
  assert (D' : differ nchan ms nband g = true).
  { rewrite <- D. unfold differ. rewrite G. assert (X : forall (p : nat -> R) l, existsb (fun i => neq (p i) (g i)) l = existsb (fun i => neq (p i) (fr i)) l).
    { intros p l. induction l as [|a l IH]; [reflexivity |]. cbn. rewrite G, IH. reflexivity. }
    rewrite (X ms), (X (fun _ => ms 0)). reflexivity. }
  rewrite D'. replace (Nat.eqb nband 1 || Nat.eqb (naxis1 h) 1 || Nat.eqb (naxis2 h) 1)%bool with false
    by (symmetry; rewrite !orb_false_iff; repeat split; apply Nat.eqb_neq; lia).
  assert (M : forall i j, i < j -> (g i < g j)%R) by (intros i j L; rewrite !G; apply (bands_up h nband fr B Pf i j L)).
  rewrite (grid_up ok nband g) by (intros i _; apply M; lia). rewrite grid_up by (intros i Hi; apply l_sorted; assumption). rewrite grid_up by (intros i Hi; apply m_sorted; assumption).
  cbn [andb negb]. rewrite Sq, Nat.eqb_refl. cbn [negb]. eexists. split; [reflexivity |]. intros f i j k Hk L L'. unfold brightness_of.
  assert (I : interpolates nband g (fun k => data (k * (naxis2 h * naxis2 h) + (i * naxis1 h + j))) (ms f) (line nband g (fun k => data (k * (naxis2 h * naxis2 h) + (i * naxis1 h + j))) (ms f))).
  { apply line_up; [exact Hb |]. intros a b Lab _. apply M. exact Lab. }
  specialize (I k Hk). rewrite !G in I. rewrite (I L L').
  assert (Ix : forall k, (k * naxis2 h + i) * naxis1 h + j = k * (naxis2 h * naxis2 h) + (i * naxis1 h + j)) by (intros; rewrite Sq; ring).
  unfold pixel. rewrite !Ix. reflexivity.
Qed.

(* ---------- every failure is a ValueError ---------- *)
Lemma cube_err ok h data nchan ms e : model_cube ok h data nchan ms = Raise e -> e = ValueError.
Proof.
  unfold model_cube, freq_axis. destruct (String.eqb (ctype4 h) "FREQ"); [|destruct (String.eqb (ctype3 h) "FREQ")]; cbn [bind];
    [| | intros E; injection E as <-; reflexivity];
    (destruct (Nat.ltb 1 _); [intros E; injection E as <-; reflexivity |]; destruct (differ _ _ _ _);
     [destruct (_ || _)%bool; [intros E; injection E as <-; reflexivity |]; destruct (negb _); [intros E; injection E as <-; reflexivity |];
      destruct (negb _); [intros E; injection E as <-; reflexivity | discriminate]
     | destruct (negb _); [intros E; injection E as <-; reflexivity | discriminate]]).
Qed.
Lemma comp_err ok h data nchan ms e : components ok h data nchan ms = Raise e -> e = ValueError.
Proof.
  unfold components. destruct (negb _); [intros E; injection E as <-; reflexivity |]. destruct (negb _); [intros E; injection E as <-; reflexivity |].
  destruct (model_cube ok h data nchan ms) as [cube|e'] eqn:C; cbn [bind]; [|intros E; injection E as <-; apply (cube_err _ _ _ _ _ _ C)].
  destruct (Nat.eqb nchan 0); [intros E; injection E as <-; reflexivity |]. destruct (Nat.eqb (List.length _) 1); [intros E; injection E as <-; reflexivity | discriminate].
Qed.
Lemma predict_err ok h data nchan ms fc freq rows uvw nc e : predict_fits ok h data nchan ms fc freq rows uvw nc = Raise e -> e = ValueError.
Proof.
  unfold predict_fits. destruct (components ok h data nchan ms) as [((ncomp, image), lm)|e'] eqn:C; cbn [bind]; [|intros E; injection E as <-; apply (comp_err _ _ _ _ _ _ C)].
  destruct fc as [ch|]; [|intros E; injection E as <-; reflexivity]. unfold dask_im_to_vis.
  repeat (destruct (negb _); [intros E; injection E as <-; reflexivity |]). cbn [im_constant String.eqb Ascii.eqb Bool.eqb bind].
  change (im_constant "fourier") with (Ok minus_two_pi_over_c : res R). cbn [bind].
  destruct (Nat.eqb nc 1); [discriminate |]. destruct (Nat.eqb nc 4); [discriminate |]. destruct (Nat.eqb nc 2); [discriminate |]. intros E; injection E as <-; reflexivity.
Qed.
(* what a successful call tells *)
Lemma predict_ok ok h data nchan ms fc freq rows uvw nc V : predict_fits ok h data nchan ms fc freq rows uvw nc = Ok V ->
  fc = Some [nchan] /\ (nc = 1 \/ nc = 2 \/ nc = 4) /\ in_degrees h /\ exists cube, model_cube ok h data nchan ms = Ok cube /\ List.length (nonzero nchan (naxis1 h * naxis2 h) cube) <> 1.
Proof.
  unfold predict_fits, components. destruct (degrees (cunit1 h)) eqn:D1; [|discriminate]. destruct (degrees (cunit2 h)) eqn:D2; [|discriminate]. cbn [negb].
  destruct (model_cube ok h data nchan ms) as [cube|] eqn:C; [|discriminate]. cbn [bind]. destruct (Nat.eqb nchan 0); [discriminate |].
  destruct (Nat.eqb_spec (List.length (nonzero nchan (naxis1 h * naxis2 h) cube)) 1) as [|N1]; [discriminate |]. cbn [bind].
  destruct fc as [ch|]; [|discriminate]. unfold dask_im_to_vis. repeat (destruct (negb (Nat.eqb _ _)); [discriminate |]).
  unfold nats_eqb. destruct (list_eq_dec Nat.eq_dec [nchan] ch) as [<-|]; [|discriminate]. cbn [negb]. change (im_constant "fourier") with (Ok minus_two_pi_over_c : res R). cbn [bind].
  intros E. split; [reflexivity |]. split.
  { destruct (Nat.eqb_spec nc 1); [auto |]. destruct (Nat.eqb_spec nc 4); [auto |]. destruct (Nat.eqb_spec nc 2); [auto | discriminate]. }
  split; [|exists cube; split; [reflexivity | exact N1]].
  unfold degrees in D1, D2. apply orb_true_iff in D1, D2. rewrite !String.eqb_eq in D1, D2. split; assumption.
Qed.
Lemma cube_ok ok h data nchan ms cube : model_cube ok h data nchan ms = Ok cube -> exists nband fr ncorr, freq_axis h = Ok (nband, fr, ncorr) /\ ncorr <= 1 /\
  (differ nchan ms nband fr = true -> nband <> 1 /\ naxis1 h = naxis2 h /\ naxis1 h <> 1 /\ grid_ok ok (naxis2 h) (fun i => nth i (m_coord h) 0%R) = true).
Proof.
  unfold model_cube. destruct (freq_axis h) as [((nband, fr), ncorr)|]; [|discriminate]. cbn [bind]. destruct (Nat.ltb_spec 1 ncorr); [discriminate |].
  intros E. exists nband, fr, ncorr. split; [reflexivity |]. split; [lia |]. intros D. rewrite D in E.
  destruct (Nat.eqb_spec nband 1); [discriminate |]. destruct (Nat.eqb_spec (naxis1 h) 1); [discriminate |]. destruct (Nat.eqb_spec (naxis2 h) 1); [discriminate |]. cbn [orb] in E.
  destruct (grid_ok ok (naxis2 h) _) eqn:G; [|rewrite andb_false_r in E; discriminate].
  destruct (negb _); [discriminate |]. destruct (Nat.eqb_spec (naxis2 h) (naxis1 h)); [|discriminate]. repeat split; auto.
Qed.
