(* C109: consequences, refusals. *)
From Coq Require Import Reals Lra Lia.
From Verif Require Import Prelude CRing CplxR NumpyModel AvgModel CalSpec KronModel KronSpec CoordModel CoordSpec GpsModel GpsSpec ScreenModel ScreenSpec GpGainsModel GpGainsSpec GpGainsProofs GpGainsProofs2.
Open Scope R_scope.

Lemma bind_ok {A B} (x : res A) (f : A -> res B) b : bind x f = Ok b -> exists a, x = Ok a /\ f a = Ok b.
Proof. destruct x as [a|e]; cbn; intros H; [now exists a|discriminate]. Qed.
Lemma unit_main chol nrow time ant1 ant2 nchan freq sources noise nt na nf nd out :
  phase_only_gains chol nrow time ant1 ant2 nchan freq sources noise = Ok (nt, na, nf, nd, out) -> forall t p f d c, norm2 (out t p f d c) = 1.
Proof.
  intros E t p f d c. unfold phase_only_gains in E. destruct (Nat.eqb nrow 0); [discriminate|].
  destruct (unique_internal Z.ltb zneqb nrow time) as [[[us ?] ?] ?]. destruct (Nat.eqb nchan 0); [discriminate|]. destruct (Nat.ltb _ 2); [discriminate|].
  apply bind_ok in E as (lm & _ & E). destruct (_ && _)%bool; [discriminate|].
  destruct (normalise (length us) _) as [tn|]; [|discriminate]. destruct (normalise nchan freq) as [fn|]; [|discriminate].
  apply bind_ok in E as (Kt & _ & E). apply bind_ok in E as (Kf & _ & E). apply bind_ok in E as (Kd & _ & E). apply bind_ok in E as (L & _ & E). apply bind_ok in E as (g & _ & E).
  assert (EO : (fun t p f d c => cis (g t p f d c)) = out) by congruence. rewrite <- EO. unfold norm2, cis, re, im. cbn [fst snd].
  pose proof (sin2_cos2 (g t p f d c)) as S. unfold Rsqr in S. lra.
Qed.

Lemma refused_main chol nrow time ant1 ant2 nchan freq sources noise us : distinct_times nrow time us ->
  (nrow = 0%nat -> phase_only_gains chol nrow time ant1 ant2 nchan freq sources noise = Raise ValueError) /\
  ((0 < nrow)%nat -> nchan = 0%nat -> phase_only_gains chol nrow time ant1 ant2 nchan freq sources noise = Raise ValueError) /\
  ((0 < nrow)%nat -> (0 < nchan)%nat -> (length sources < 2)%nat -> phase_only_gains chol nrow time ant1 ant2 nchan freq sources noise = Raise TypeError) /\
  ((0 < nrow)%nat -> (2 <= length sources)%nat -> length us = nchan -> nchan = length sources -> phase_only_gains chol nrow time ant1 ant2 nchan freq sources noise = Raise TypeError) /\
  ((0 < nrow)%nat -> (0 < nchan)%nat -> (2 <= length sources)%nat -> ~ (length us = nchan /\ nchan = length sources) ->
     (forall r r', (r < nrow)%nat -> (r' < nrow)%nat -> time r = time r') \/ (forall f f', (f < nchan)%nat -> (f' < nchan)%nat -> freq f = freq f') ->
     phase_only_gains chol nrow time ant1 ant2 nchan freq sources noise = Raise NaNs).
Proof.
  intros DT. destruct (unique_us _ _ _ DT) as (a & b & c & EU). destruct (lm_cols sources) as (lm & ELM & _). unfold phase_only_gains. rewrite EU.
  repeat apply conj.
  - intros ->. reflexivity.
  - intros P ->. destruct (Nat.eqb_spec nrow 0); [lia|]. reflexivity.
  - intros P Q S. destruct (Nat.eqb_spec nrow 0); [lia|]. destruct (Nat.eqb_spec nchan 0); [lia|]. destruct (Nat.ltb_spec (length sources) 2); [reflexivity|lia].
  - intros P S X Y. destruct (Nat.eqb_spec nrow 0); [lia|]. destruct (Nat.eqb_spec nchan 0); [lia|]. destruct (Nat.ltb_spec (length sources) 2); [lia|]. rewrite ELM. cbn [bind].
    rewrite X, Y, !Nat.eqb_refl. reflexivity.
  - intros P Q S NE ONE. destruct (Nat.eqb_spec nrow 0); [lia|]. destruct (Nat.eqb_spec nchan 0); [lia|]. destruct (Nat.ltb_spec (length sources) 2); [lia|]. rewrite ELM. cbn [bind].
    assert (G : (Nat.eqb (length us) nchan && Nat.eqb nchan (length sources))%bool = false).
    { destruct (Nat.eqb_spec (length us) nchan); [|reflexivity]. destruct (Nat.eqb_spec nchan (length sources)); [|reflexivity]. elim NE. now split. }
    rewrite G. assert (Z : normalise (length us) (fun t => IZR (nth t us 0%Z)) = None \/ normalise nchan freq = None).
    { destruct ONE as [HH|HH]; [left|right].
      - assert (LU : (0 < length us)%nat) by (destruct (in_us _ _ _ 0%nat DT P) as (t & T & _); lia).
        assert (EQ : forall t, (t < length us)%nat -> nth t us 0%Z = time 0%nat) by (intros t T; destruct (us_in _ _ _ _ DT T) as (r & R & <-); apply HH; assumption).
        set (x := fun t => IZR (nth t us 0%Z)). assert (EX : forall t, (t < length us)%nat -> x t = IZR (time 0%nat)) by (intros t T; unfold x; now rewrite EQ).
        assert (BB : is_bottom (length us) x (IZR (time 0%nat))) by (split; [exists 0%nat; split; [exact LU|now apply EX]|intros t T; rewrite EX by exact T; apply Rle_refl]).
        assert (TT : is_top (length us) x (IZR (time 0%nat))) by (split; [exists 0%nat; split; [exact LU|now apply EX]|intros t T; rewrite EX by exact T; apply Rle_refl]).
        now apply (proj1 (normalise_spec _ _ _ _ BB TT)).
      - apply (proj1 (normalise_spec nchan freq (freq 0%nat) (freq 0%nat) ltac:(split; [exists 0%nat; split; [exact Q|reflexivity]|intros f F; rewrite (HH f 0%nat) by assumption; apply Rle_refl])
          ltac:(split; [exists 0%nat; split; [exact Q|reflexivity]|intros f F; rewrite (HH f 0%nat) by assumption; apply Rle_refl]))). reflexivity. }
    destruct (normalise (length us) _); [|reflexivity]. destruct Z as [Z|Z]; [discriminate|]. rewrite Z. reflexivity.
Qed.

(* mirror images of one another, such as opposite points of the equator *)
Lemma mirror_cos s s' : fst s' = PI - fst s -> snd s' = snd s -> cos_l0 s = cos_l0 s' /\ cos_m0 s = cos_m0 s'.
Proof.
  intros E E'. unfold cos_l0, cos_m0, dot, direction, east, north. rewrite E, E', sin_PI_x, sin_0, cos_0. split; ring.
Qed.
Lemma gauss_0 s l : gauss s l 0 = s ^ 2.
Proof. unfold gauss. replace (- 0 ^ 2 / (2 * l ^ 2)) with 0 by (unfold Rdiv; ring). rewrite exp_0. ring. Qed.
Lemma axis_same s l lo hi x : axis_cov s l lo hi x x = s ^ 2.
Proof. unfold axis_cov. replace (Rabs (x - x) / (hi - lo)) with 0; [apply gauss_0|]. rewrite Rminus_diag_eq, Rabs_R0 by reflexivity. unfold Rdiv. ring. Qed.
Lemma sky_mirror s l a b : cos_l0 a = cos_l0 b -> cos_m0 a = cos_m0 b -> sky_cov s l a b = s ^ 2.
Proof. intros E E'. unfold sky_cov. rewrite E, E', <- (gauss_0 s l). f_equal. replace ((_ - _) ^ 2 + (_ - _) ^ 2) with 0 by ring. apply sqrt_0. Qed.
Lemma mixed_diff n a b : mixed n (fun k => a k - b k) (fun k => a k - b k) = mixed n a a - 2 * mixed n a b + mixed n b b.
Proof.
  unfold mixed. induction n as [|n IH]; [cbn; ring|].
  change (rsum n (fun k => (a k - b k) * (a k - b k)) + (a n - b n) * (a n - b n) = rsum n (fun k => a k * a k) + a n * a n - 2 * (rsum n (fun k => a k * b k) + a n * b n) + (rsum n (fun k => b k * b k) + b n * b n)).
  rewrite IH. ring.
Qed.
Lemma jitter_range e : jitter e -> 0 <= e <= 1 / 10 ^ 13.
Proof. intros [->| ->]; pose proof tiny_pos as P; unfold tiny in P; split; lra. Qed.
Lemma mirror_main chol nrow time ant1 ant2 nchan freq sources us t0 t1 f0 f1 nant d d' :
  cholesky_routine chol -> handled nrow time nchan freq sources us t0 t1 f0 f1 -> number_of_antennas nrow ant1 ant2 nant ->
  (d < length sources)%nat -> (d' < length sources)%nat -> d <> d' ->
  fst (source sources d') = PI - fst (source sources d) -> snd (source sources d') = snd (source sources d) ->
  let nt := length us in let nd := length sources in let N := (nt * nchan * nd)%nat in
  exists A : nat -> nat -> nat -> arr R,
    (forall t f, (t < nt)%nat -> (f < nchan)%nat -> mixed N (A t f d) (A t f d) >= 1 / 16 /\
       mixed N (fun k => A t f d k - A t f d' k) (fun k => A t f d k - A t f d' k) <= 1 / 10 ^ 13) /\
    forall noise, exists out, phase_only_gains chol nrow time ant1 ant2 nchan freq sources noise = Ok (nt, nant, nchan, nd, out) /\
      forall t p f e c, (t < nt)%nat -> (p < nant)%nat -> (f < nchan)%nat -> (e < nd)%nat -> (c < 2)%nat ->
        out t p f e c = cis (mixed N (A t f e) (noise p c)).
Proof.
  intros CH H NA D D' DD E1 E2 nt nd N. destruct (phases_main chol nrow time ant1 ant2 nchan freq sources us t0 t1 f0 f1 nant CH H NA) as (et & ef & ed & A & Jt & Jf & Jd & G & V).
  exists A. split; [|exact V]. intros t f T F. destruct (mirror_cos _ _ E1 E2) as [ML MM].
  pose proof (G t f d t f d T F D T F D) as G1. pose proof (G t f d t f d' T F D T F D') as G2. pose proof (G t f d' t f d' T F D' T F D') as G3.
  rewrite !axis_same, sky_mirror in G1 by reflexivity. rewrite !axis_same, sky_mirror in G2 by assumption. rewrite !axis_same, sky_mirror in G3 by reflexivity.
  unfold on_diagonal in *. rewrite !Nat.eqb_refl in *. destruct (Nat.eqb_spec d d'); [contradiction|].
  change (length us * nchan * length sources)%nat with N in *. apply jitter_range in Jt, Jf, Jd. pose proof tiny_pos as TP. unfold tiny in TP. set (eps := 1 / 10 ^ 13) in *.
  assert (EB : eps <= 1 / 10). { unfold eps, Rdiv. rewrite !Rmult_1_l. apply Rinv_le_contravar; [lra|]. rewrite <- (pow_1 10) at 1. apply Rle_pow; [lra|lia]. }
  split.
  - change (mixed N (A t f d) (A t f d) >= 1 / 16). rewrite G1. assert (Q : 1 / 16 <= ((1 / 4) ^ 2 + et) * (1 ^ 2 + ef)) by nra. assert (0 <= ed) by lra. nra.
  - rewrite mixed_diff. change (mixed N (A t f d) (A t f d) - 2 * mixed N (A t f d) (A t f d') + mixed N (A t f d') (A t f d') <= eps). rewrite G1, G2, G3.
    replace (_ - _ + _) with (2 * (((1 / 4) ^ 2 + et) * (1 ^ 2 + ef)) * ed) by ring.
    assert (Q : 0 <= ((1 / 4) ^ 2 + et) * (1 ^ 2 + ef) <= 1 / 2) by (split; nra). nra.
Qed.
