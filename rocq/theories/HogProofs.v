From Coq Require Import Reals Lra.
From Verif Require Import Prelude PreludeFacts LoopFacts CRing CplxR HogModel HogSpec.
Open Scope nat_scope.

(* ---------- minimum and maximum ---------- *)
Lemma Rmax_cases a b : Rmax a b = a \/ Rmax a b = b.
Proof. unfold Rmax. destruct Rle_dec; auto. Qed.
Lemma fold_max nx ny (a : arr2 R) v0 :
  let r := for_ nx (fun x m => for_ ny (fun y m => Rmax m (a x y)) m) v0 in
  (v0 <= r)%R /\ (forall x y, in_image nx ny x y -> (a x y <= r)%R) /\ (r = v0 \/ exists x y, in_image nx ny x y /\ a x y = r).
Proof.
  cbv zeta. unfold in_image. induction nx as [|nx IH]; [cbn [for_]; split; [lra|]; split; [intros; lia|auto]|].
  rewrite for_S. destruct IH as (L & B & W). set (r := for_ nx _ _) in *. clearbody r.
  assert (I : let s := for_ ny (fun y m => Rmax m (a nx y)) r in
    (r <= s)%R /\ (forall y, y < ny -> (a nx y <= s)%R) /\ (s = r \/ exists y, y < ny /\ a nx y = s)).
  { cbv zeta. clear. induction ny as [|ny IH]; [cbn [for_]; split; [lra|]; split; [intros; lia|auto]|].
    rewrite for_S. destruct IH as (L & B & W). set (s := for_ ny _ _) in *. clearbody s.
    pose proof (Rmax_l s (a nx ny)). pose proof (Rmax_r s (a nx ny)). split; [lra|]. split.
    - intros y Hy. destruct (Nat.eq_dec y ny) as [->|N]; [lra|]. specialize (B y ltac:(lia)). lra.
    - destruct (Rmax_cases s (a nx ny)) as [->| ->]; [|right; exists ny; split; [lia|reflexivity]].
      destruct W as [W|(y & Hy & W)]; [auto|right; exists y; split; [lia|exact W]]. }
  cbv zeta in I. set (s := for_ ny _ _) in *. clearbody s. destruct I as (L' & B' & W'). split; [lra|]. split.
  - intros x y [Hx Hy]. destruct (Nat.eq_dec x nx) as [->|N]; [now apply B'|]. specialize (B x y ltac:(lia)). lra.
  - destruct W' as [->|(y & Hy & W')]; [|right; exists nx, y; split; [lia|exact W']].
    destruct W as [W|(x & y & H & W)]; [auto|right; exists x, y; split; [lia|exact W]].
Qed.
Lemma amax_spec nx ny a : 0 < nx -> 0 < ny -> is_max nx ny a (amax nx ny a).
Proof.
  intros Hx Hy. unfold is_max, amax. destruct (fold_max nx ny a (a 0 0)) as (L & B & W). cbv zeta in *. split; [|exact B].
  destruct W as [->|W]; [exists 0, 0; unfold in_image; auto|exact W].
Qed.
Lemma amin_amax nx ny a : amin nx ny a = (- amax nx ny (fun x y => - a x y))%R.
Proof.
  unfold amin, amax. generalize (a 0 0). induction nx as [|nx IH]; intros v; [cbn [for_]; lra|]. rewrite !for_S, IH.
  generalize (for_ nx (fun x m => for_ ny (fun y m => Rmax m (- a x y)) m) (- v)%R). clear. intros w.
  induction ny as [|ny IH]; [reflexivity|]. rewrite !for_S, IH. generalize (for_ ny (fun y m => Rmax m (- a nx y)) w). intros z.
  unfold Rmin, Rmax. destruct Rle_dec, Rle_dec; lra.
Qed.
Lemma amin_spec nx ny a : 0 < nx -> 0 < ny -> is_min_of nx ny a (amin nx ny a).
Proof.
  intros Hx Hy. rewrite amin_amax. destruct (amax_spec nx ny (fun x y => - a x y)%R Hx Hy) as [(x & y & I & E) B]. set (m := amax _ _ _) in *. clearbody m.
  split; [exists x, y; split; [exact I|]; lra|]. intros x' y' I'. specialize (B x' y' I'). cbn beta in B. lra.
Qed.
Lemma is_max_unique nx ny a u v : is_max nx ny a u -> is_max nx ny a v -> u = v.
Proof. intros [(x & y & I & E) B] [(x' & y' & I' & E') B']. specialize (B x' y' I'). specialize (B' x y I). lra. Qed.
Lemma is_min_of_unique nx ny a u v : is_min_of nx ny a u -> is_min_of nx ny a v -> u = v.
Proof. intros [(x & y & I & E) B] [(x' & y' & I' & E') B']. specialize (B x' y' I'). specialize (B' x y I). lra. Qed.

(* ---------- scanning for the last match ---------- *)
Section Scan.
  Context {T : Type} (obs : T -> option (nat * nat)) (P : nat -> nat -> Prop) (ny : nat) (body : nat -> nat -> T -> T).
  Hypothesis Hyes : forall x y st, P x y -> obs (body x y st) = Some (x, y).
  Hypothesis Hno : forall x y st, ~ P x y -> obs (body x y st) = obs st.
  Hypothesis Pdec : forall x y, P x y \/ ~ P x y.
  (* the last match among the positions before (x, y) *)
  Definition last_before (x y : nat) (o : option (nat * nat)) : Prop :=
    match o with
    | Some (p, q) => q < ny /\ P p q /\ later p q x y /\ forall x' y', y' < ny -> later p q x' y' -> later x' y' x y -> ~ P x' y'
    | None => forall x' y', y' < ny -> later x' y' x y -> ~ P x' y'
    end.
  Lemma scan_row x st : last_before x 0 (obs st) -> forall y, y <= ny -> last_before x y (obs (for_ y (body x) st)).
  Proof.
    intros H0. induction y as [|y IH]; intros Hy; [exact H0|]. specialize (IH ltac:(lia)). rewrite for_S. destruct (Pdec x y) as [Y|N].
    - rewrite Hyes by auto. cbn. unfold later. repeat split; auto; try lia.
    - rewrite Hno by auto. destruct (obs (for_ y (body x) st)) as [[p q]|]; cbn in *; unfold later in *.
      + destruct IH as (A & B & C & D). repeat split; auto; try lia. intros x' y' Hy' L1 L2. destruct (Nat.eq_dec x' x) as [->|E]; [destruct (Nat.eq_dec y' y) as [->|E']; auto|]; apply D; auto; lia.
      + intros x' y' Hy' L. destruct (Nat.eq_dec x' x) as [->|E]; [destruct (Nat.eq_dec y' y) as [->|E']; auto|]; apply IH; auto; lia.
  Qed.
  Lemma scan_all nx st : obs st = None -> last_before nx 0 (obs (for_ nx (fun x => for_ ny (body x)) st)).
  Proof.
    intros H0. induction nx as [|nx IH]; [cbn [for_]; rewrite H0; cbn; unfold later; intros; lia|]. rewrite for_S.
    pose proof (scan_row nx _ IH ny (Nat.le_refl ny)) as H. match type of H with last_before _ _ ?o => set (oo := o) in *; clearbody oo end. clear IH. destruct oo as [[p q]|]; cbn in *; unfold later in *.
    - destruct H as (A & B & C & D). repeat split; auto; try lia. intros x' y' Hy' L1 L2. apply D; auto. lia.
    - intros x' y' Hy' L. apply H; auto. lia.
  Qed.
End Scan.

(* ---------- find_peak ---------- *)
Theorem find_peak_spec nx ny a : 0 < nx -> 0 < ny -> exists p q pm qm v, find_peak nx ny a = Ok (p, q, pm, qm, v) /\
  is_max nx ny a v /\ last_with nx ny a v p q /\ (exists u, is_min_of nx ny a u /\ last_with nx ny a u pm qm).
Proof.
  intros Hx Hy. unfold find_peak. destruct (Nat.eqb_spec nx 0); [lia|]. destruct (Nat.eqb_spec ny 0); [lia|]. cbn [orb]. cbv zeta.
  set (lo := amin nx ny a). set (hi := amax nx ny a).
  pose proof (amin_spec nx ny a Hx Hy) as Lo. pose proof (amax_spec nx ny a Hx Hy) as Hi. fold lo in Lo. fold hi in Hi.
  set (body := fun (x y : nat) (st : peak_state) => if Req_EM_T (a x y) hi
         then {| k_min := k_min (if Req_EM_T (a x y) lo then {| k_min := Some (x, y); k_max := k_max st; k_val := k_val st |} else st); k_max := Some (x, y); k_val := a x y |}
         else (if Req_EM_T (a x y) lo then {| k_min := Some (x, y); k_max := k_max st; k_val := k_val st |} else st)).
  match goal with |- context [for_ nx ?b ?s] => change b with (fun x => for_ ny (body x)); set (st0 := s) end.
  pose proof (scan_all k_min (fun x y => a x y = lo) ny body) as S1. pose proof (scan_all k_max (fun x y => a x y = hi) ny body) as S2.
  specialize (S1 ltac:(intros x y st E; unfold body; destruct (Req_EM_T (a x y) hi), (Req_EM_T (a x y) lo); cbn; congruence)
                 ltac:(intros x y st E; unfold body; destruct (Req_EM_T (a x y) hi), (Req_EM_T (a x y) lo); cbn; congruence)
                 ltac:(intros x y; destruct (Req_EM_T (a x y) lo); auto) nx st0 eq_refl).
  specialize (S2 ltac:(intros x y st E; unfold body; destruct (Req_EM_T (a x y) hi), (Req_EM_T (a x y) lo); cbn; congruence)
                 ltac:(intros x y st E; unfold body; destruct (Req_EM_T (a x y) hi), (Req_EM_T (a x y) lo); cbn; congruence)
                 ltac:(intros x y; destruct (Req_EM_T (a x y) hi); auto) nx st0 eq_refl).
  assert (V : match k_max (for_ nx (fun x => for_ ny (body x)) st0) with None => True | Some _ => k_val (for_ nx (fun x => for_ ny (body x)) st0) = hi end).
  { apply (for_inv (fun _ st => match k_max st with None => True | Some _ => k_val st = hi end)); [exact I|]. intros x st _ H.
    apply (for_inv (fun _ st => match k_max st with None => True | Some _ => k_val st = hi end)); [exact H|]. intros y st' _ H'.
    unfold body. destruct (Req_EM_T (a x y) hi), (Req_EM_T (a x y) lo); cbn; auto. }
  destruct (for_ nx (fun x => for_ ny (body x)) st0) as [kmin kmax kval]. cbn [k_min k_max k_val] in *.
  assert (X1 : exists pm qm, kmin = Some (pm, qm) /\ last_with nx ny a lo pm qm).
  { destruct kmin as [[pm qm]|]; cbn in S1.
    - exists pm, qm. split; [reflexivity|]. destruct S1 as (A & B & C & D). unfold last_with, in_image, later in *. repeat split; auto; try lia. intros x y H L. apply D; lia.
    - exfalso. destruct Lo as [(x & y & H & E) _]. apply (S1 x y); unfold in_image, later in *; auto; lia. }
  assert (X2 : exists p q, kmax = Some (p, q) /\ last_with nx ny a hi p q).
  { destruct kmax as [[p q]|]; cbn in S2.
    - exists p, q. split; [reflexivity|]. destruct S2 as (A & B & C & D). unfold last_with, in_image, later in *. repeat split; auto; try lia. intros x y H L. apply D; lia.
    - exfalso. destruct Hi as [(x & y & H & E) _]. apply (S2 x y); unfold in_image, later in *; auto; lia. }
  destruct X1 as (pm & qm & -> & L1), X2 as (p & q & -> & L2). subst kval. exists p, q, pm, qm, hi. split; [reflexivity|]. split; [exact Hi|]. split; [exact L2|]. exists lo. auto.
Qed.
Lemma find_peak_empty nx ny a : nx = 0 \/ ny = 0 -> find_peak nx ny a = Raise ValueError.
Proof. intros H. unfold find_peak. destruct (Nat.eqb_spec nx 0), (Nat.eqb_spec ny 0); try reflexivity; lia. Qed.

(* ---------- CLEAN ---------- *)
Lemma cycle_spec npix psf gamma v p q C R : p < npix -> q < npix ->
  minor_cycle npix psf gamma v p q C R (build_cleanmap C v gamma p q) (update_residual R v gamma p q npix psf).
Proof.
  intros Hp Hq. split.
  - intros x y. unfold build_cleanmap. destruct (Nat.eqb_spec x p) as [->|N]; [destruct (Nat.eqb_spec y q) as [->|N]|]; cbn [andb].
    + rewrite upd2_eq. ring.
    + rewrite upd2_neq by (right; auto). reflexivity.
    + rewrite upd2_neq by (left; auto). reflexivity.
  - intros x y [Hx Hy]. unfold update_residual. replace (npix - 1 - p + x) with (npix - 1 + x - p) by lia. replace (npix - 1 - q + y) with (npix - 1 + y - q) by lia. reflexivity.
Qed.
Theorem loop_spec npix psf gamma thr : 0 < npix -> forall fuel C R p q v, is_max npix npix R v -> last_with npix npix R v p q ->
  exists k Cs Rs, clean_loop fuel npix psf gamma thr C R p q v = Ok (Cs k, Rs k) /\ k <= fuel /\ Cs 0 = C /\ Rs 0 = R /\
    (forall i, i < k -> exists v p q, is_max npix npix (Rs i) v /\ last_with npix npix (Rs i) v p q /\ (thr < Rabs v)%R /\
       minor_cycle npix psf gamma v p q (Cs i) (Rs i) (Cs (S i)) (Rs (S i))) /\
    (k < fuel -> exists v, is_max npix npix (Rs k) v /\ (Rabs v <= thr)%R).
Proof.
  intros Hn. induction fuel as [|fuel IH]; intros C R p q v Hv Hl.
  - exists 0, (fun _ => C), (fun _ => R). repeat split; auto; intros; lia.
  - cbn [clean_loop]. destruct (Rlt_dec thr (Rabs v)) as [T|T].
    + set (C1 := build_cleanmap C v gamma p q). set (R1 := update_residual R v gamma p q npix psf).
      destruct (find_peak_spec npix npix R1 Hn Hn) as (p1 & q1 & pm & qm & v1 & E & M1 & L1 & _). rewrite E. cbn [bind].
      destruct (IH C1 R1 p1 q1 v1 M1 L1) as (k & Cs & Rs & E2 & K & C0 & R0 & St & Sp).
      exists (S k), (fun i => match i with O => C | S i => Cs i end), (fun i => match i with O => R | S i => Rs i end).
      split; [exact E2|]. split; [lia|]. split; [reflexivity|]. split; [reflexivity|]. split.
      * intros [|i] Hi; [|apply St; lia]. exists v, p, q. split; [exact Hv|]. split; [exact Hl|]. split; [exact T|]. rewrite C0, R0. apply cycle_spec; apply Hl.
      * intros Hk. apply Sp. lia.
    + exists 0, (fun _ => C), (fun _ => R). repeat split; auto; try (intros; lia); try lia. intros _. exists v. split; [exact Hv|lra].
Qed.

Theorem hogbom_spec n dirty psf gamma threshold niter : 0 < n -> exists v k Cs Rs,
  is_max n n dirty v /\
  hogbom_clean n n dirty (2 * n) (2 * n) psf gamma threshold niter = Ok (Cs k, Rs k) /\
  k <= Z.to_nat (niter_of n niter + 1) /\ (forall x y, Cs 0 x y = 0%R) /\ Rs 0 = dirty /\
  let thr := (match threshold with Some t => t | None => 2 / 10 end * Rabs v)%R in
  (forall i, i < k -> exists v p q, is_max n n (Rs i) v /\ last_with n n (Rs i) v p q /\ (thr < Rabs v)%R /\
       minor_cycle n psf gamma v p q (Cs i) (Rs i) (Cs (S i)) (Rs (S i))) /\
  (k < Z.to_nat (niter_of n niter + 1) -> exists v, is_max n n (Rs k) v /\ (Rabs v <= thr)%R).
Proof.
  intros Hn. unfold hogbom_clean. rewrite !Nat.eqb_refl. cbn [negb orb].
  destruct (find_peak_spec n n dirty Hn Hn) as (p & q & pm & qm & v & E & M & L & _). rewrite E. cbn [bind].
  destruct (loop_spec n psf gamma (match threshold with Some t => t | None => 2 / 10 end * Rabs v)%R Hn (Z.to_nat (niter_of n niter + 1)) (fun _ _ => 0%R) dirty p q v M L)
    as (k & Cs & Rs & E2 & K & C0 & R0 & St & Sp).
  exists v, k, Cs, Rs. split; [exact M|]. split; [unfold niter_of in E2; destruct threshold, niter; exact E2|]. split; [exact K|]. split; [intros; now rewrite C0|]. split; [exact R0|]. split; auto.
Qed.

(* ---------- conservation ---------- *)
Lemma spread_cycle n psf gamma v p q C R C' R' x y : in_image n n p q -> in_image n n x y -> minor_cycle n psf gamma v p q C R C' R' ->
  (R' x y + spread n C' psf x y = R x y + spread n C psf x y)%R.
Proof.
  intros [Hp Hq] I [HC HR]. rewrite HR by exact I.
  assert (E : spread n C' psf x y = (spread n C psf x y + gamma * v * psf (n - 1 + x - p)%nat (n - 1 + y - q)%nat)%R).
  { unfold spread.
    transitivity (csum (K := RR) n (fun p' => cadd (c := RR) (csum (K := RR) n (fun q' => C p' q' * psf (n - 1 + x - p')%nat (n - 1 + y - q')%nat)%R)
        (if Nat.eqb p' p then (gamma * v * psf (n - 1 + x - p)%nat (n - 1 + y - q)%nat)%R else 0%R))).
    - apply (csum_ext (K := RR)). intros p' Hp'. destruct (Nat.eqb_spec p' p) as [->|N].
      + transitivity (csum (K := RR) n (fun q' => cadd (c := RR) (C p q' * psf (n - 1 + x - p)%nat (n - 1 + y - q')%nat)%R (if Nat.eqb q' q then (gamma * v * psf (n - 1 + x - p)%nat (n - 1 + y - q)%nat)%R else 0%R))).
        * apply (csum_ext (K := RR)). intros q' Hq'. rewrite HC, Nat.eqb_refl. cbn [andb]. destruct (Nat.eqb_spec q' q) as [->|N]; cbn; ring.
        * rewrite (csum_add RR_laws). f_equal. rewrite (csum_only RR_laws n q) by first [assumption|intros j Hj N; destruct (Nat.eqb_spec j q); [contradiction|reflexivity]]. now rewrite Nat.eqb_refl.
      + transitivity (csum (K := RR) n (fun q' => C p' q' * psf (n - 1 + x - p')%nat (n - 1 + y - q')%nat)%R); [|symmetry; apply Rplus_0_r].
        apply (csum_ext (K := RR)). intros q' Hq'. rewrite HC. destruct (Nat.eqb_spec p' p); [contradiction|]. reflexivity.
    - rewrite (csum_add RR_laws). cbn [cadd RR]. f_equal. rewrite (csum_only RR_laws n p) by first [assumption|intros j Hj N; destruct (Nat.eqb_spec j p); [contradiction|reflexivity]]. now rewrite Nat.eqb_refl. }
  rewrite E. ring.
Qed.
Theorem hogbom_conserves n dirty psf gamma threshold niter C R : 0 < n ->
  hogbom_clean n n dirty (2 * n) (2 * n) psf gamma threshold niter = Ok (C, R) ->
  forall x y, in_image n n x y -> dirty x y = (R x y + spread n C psf x y)%R.
Proof.
  intros Hn E x y I. destruct (hogbom_spec n dirty psf gamma threshold niter Hn) as (v & k & Cs & Rs & _ & E2 & _ & C0 & R0 & St & _). rewrite E in E2. injection E2 as -> ->.
  assert (A : forall i, i <= k -> dirty x y = (Rs i x y + spread n (Cs i) psf x y)%R); [|now apply A].
  induction i as [|i IH]; intros Hi.
  - rewrite R0. assert (spread n (Cs 0) psf x y = 0%R) as ->; [|ring]. unfold spread. transitivity (csum (K := RR) n (fun _ => c0)); [|apply (csum_0 RR_laws)]. apply (csum_ext (K := RR)). intros p _.
    transitivity (csum (K := RR) n (fun _ => c0)); [|apply (csum_0 RR_laws)]. apply (csum_ext (K := RR)). intros q _. rewrite C0. cbn. ring.
  - destruct (St i ltac:(lia)) as (v' & p & q & _ & L & _ & Cy). rewrite (spread_cycle n psf gamma v' p q (Cs i) (Rs i)); [|apply L|exact I|exact Cy]. apply IH. lia.
Qed.
(* components only where the residual peaked: with a positive gain, a component image is non-negative if every peak was *)
Theorem hogbom_errors ny nx dirty py px psf gamma threshold niter :
  (py <> 2 * ny \/ px <> 2 * nx -> hogbom_clean ny nx dirty py px psf gamma threshold niter = Raise ValueError) /\
  (py = 2 * ny -> px = 2 * nx -> ny <> nx -> hogbom_clean ny nx dirty py px psf gamma threshold niter = Raise AssertionError) /\
  (ny = 0 -> nx = 0 -> py = 0 -> px = 0 -> hogbom_clean ny nx dirty py px psf gamma threshold niter = Raise ValueError).
Proof.
  unfold hogbom_clean. split; [|split].
  - intros H. destruct (Nat.eqb_spec py (2 * ny)), (Nat.eqb_spec px (2 * nx)); try reflexivity. lia.
  - intros -> -> N. rewrite !Nat.eqb_refl. cbn [negb orb]. destruct (Nat.eqb_spec ny nx); [contradiction|reflexivity].
  - intros -> -> -> ->. reflexivity.
Qed.

(* ---------- restore ---------- *)
Lemma same_spread n (a b : arr2 R) x y : in_image n n x y -> fftconvolve_same n n (2 * n) (2 * n) a b x y = spread n a b x y.
Proof.
  intros [Hx Hy]. unfold fftconvolve_same, conv_at, spread.
  assert (E : (n + 2 * n - 1 - n) / 2 = n - 1).
  { destruct n as [|n]; [reflexivity|]. replace (S n + 2 * S n - 1 - S n) with (1 + n * 2) by lia. rewrite Nat.div_add by lia. replace (1 / 2) with 0 by reflexivity. lia. }
  rewrite E. apply (csum_ext (K := RR)). intros p Hp. apply (csum_ext (K := RR)). intros q Hq.
  destruct (Nat.leb_spec p (x + (n - 1))); [|lia]. destruct (Nat.ltb_spec (x + (n - 1) - p) (2 * n)); [|lia].
  destruct (Nat.leb_spec q (y + (n - 1))); [|lia]. destruct (Nat.ltb_spec (y + (n - 1) - q) (2 * n)); [|lia].
  cbn [andb]. replace (x + (n - 1) - p) with (n - 1 + x - p) by lia. replace (y + (n - 1) - q) with (n - 1 + y - q) by lia. reflexivity.
Qed.
Theorem restore_spec fit n clean psf residuals x y : in_image n n x y ->
  let beam := fit_2d_gaussian fit (2 * n) psf in
  snd (restore fit n clean psf residuals) x y = spread n clean beam x y /\
  fst (restore fit n clean psf residuals) x y = (residuals x y + spread n clean beam x y)%R.
Proof. intros I. cbv zeta. unfold restore. cbn [fst snd]. rewrite same_spread by exact I. split; [reflexivity|ring]. Qed.
(* if the clean beam is the PSF the restored image is the dirty image *)
Theorem restore_dirty fit n dirty psf gamma threshold niter C R : 0 < n ->
  hogbom_clean n n dirty (2 * n) (2 * n) psf gamma threshold niter = Ok (C, R) ->
  (forall i j, i < 2 * n -> j < 2 * n -> fit_2d_gaussian fit (2 * n) psf i j = psf i j) ->
  forall x y, in_image n n x y -> fst (restore fit n C psf R) x y = dirty x y.
Proof.
  intros Hn E HB x y I. destruct (restore_spec fit n C psf R x y I) as [_ ->]. rewrite (hogbom_conserves n dirty psf gamma threshold niter C R Hn E x y I). f_equal.
  destruct I as [Hx Hy]. unfold spread. apply (csum_ext (K := RR)). intros p Hp. apply (csum_ext (K := RR)). intros q Hq. rewrite HB by lia. reflexivity.
Qed.
(* the clean beam has peak one *)
Theorem beam_peak fit n psf : 0 < n ->
  (exists i j, in_image n n i j /\ (0 < twod_gaussian (fit (fun i j => if Rle_dec (/ 2 * amax n n psf) (psf i j) then psf i j else 0%R)) (INR j) (INR i))%R) ->
  is_max n n (fit_2d_gaussian fit n psf) 1%R.
Proof.
  intros Hn (i & j & I & P). unfold fit_2d_gaussian. cbv zeta. set (k := fit _) in *. set (d := fun i j => twod_gaussian k (INR j) (INR i)).
  destruct (amax_spec n n d Hn Hn) as [(x & y & I' & E) B]. assert (0 < amax n n d)%R by (specialize (B i j I); unfold d in B at 1; cbn beta in B; lra).
  split.
  - exists x, y. split; [exact I'|]. change (twod_gaussian k (INR y) (INR x)) with (d x y). rewrite E. field. lra.
  - intros x' y' I2. specialize (B x' y' I2). change (twod_gaussian k (INR y') (INR x')) with (d x' y'). apply (Rmult_le_reg_r (amax n n d)); [exact H|]. unfold Rdiv. rewrite Rmult_assoc, Rinv_l by lra. lra.
Qed.

(* what is fitted, and the shape of the clean beam *)
Lemma gaussian_ellipse k x y : g_sx k <> 0%R -> g_sy k <> 0%R ->
  twod_gaussian k x y = ellipse (g_off k) (g_amp k) (g_xo k) (g_yo k) (g_sx k) (g_sy k) (g_theta k) x y.
Proof. intros X Y. unfold twod_gaussian, ellipse. cbv zeta. f_equal. f_equal. f_equal. rewrite sin_2a. field. split; assumption. Qed.
Theorem beam_shape fit n psf peak : 0 < n -> is_max n n psf peak ->
  let k := fit (main_lobe peak psf) in g_sx k <> 0%R -> g_sy k <> 0%R ->
  let beam := fun i j => ellipse (g_off k) (g_amp k) (g_xo k) (g_yo k) (g_sx k) (g_sy k) (g_theta k) (INR j) (INR i) in
  exists top, is_max n n beam top /\ forall i j, fit_2d_gaussian fit n psf i j = (beam i j / top)%R.
Proof.
  intros Hn M k X Y beam. unfold fit_2d_gaussian. cbv zeta.
  rewrite (is_max_unique n n psf _ _ (amax_spec n n psf Hn Hn) M).
  replace (/ 2 * peak)%R with (peak / 2)%R by (unfold Rdiv; ring). fold (main_lobe peak psf). fold k.
  exists (amax n n (fun i j => twod_gaussian k (INR j) (INR i))). split; [|intros i j; rewrite gaussian_ellipse by assumption; reflexivity].
  destruct (amax_spec n n (fun i j => twod_gaussian k (INR j) (INR i)) Hn Hn) as [(x & y & I & E) B]. split.
  - exists x, y. split; [exact I|]. rewrite <- E. unfold beam. symmetry. apply gaussian_ellipse; assumption.
  - intros i j I'. specialize (B i j I'). cbn beta in B. rewrite gaussian_ellipse in B at 1 by assumption. exact B.
Qed.

Lemma run_point n C x y : in_image n n x y -> spread n C (point_psf (n - 1) (n - 1)) x y = C x y.
Proof.
  intros [Hx Hy]. unfold spread, point_psf.
  transitivity (csum (K := RR) n (fun p => if Nat.eqb p x then C x y else 0%R)).
  - apply (csum_ext (K := RR)). intros p Hp. destruct (Nat.eqb_spec p x) as [->|N].
    + rewrite (csum_only RR_laws n y) by first [assumption|intros j Hj N; destruct (Nat.eqb_spec (n - 1 + y - j) (n - 1)); [lia|rewrite andb_false_r; apply Rmult_0_r]].
      replace (n - 1 + x - x) with (n - 1) by lia. replace (n - 1 + y - y) with (n - 1) by lia. rewrite !Nat.eqb_refl. cbn [andb]. apply Rmult_1_r.
    + transitivity (csum (K := RR) n (fun _ => c0)); [|apply (csum_0 RR_laws)]. apply (csum_ext (K := RR)). intros q Hq.
      destruct (Nat.eqb_spec (n - 1 + x - p) (n - 1)); [lia|]. apply Rmult_0_r.
  - rewrite (csum_only RR_laws n x) by first [assumption|intros j Hj N; destruct (Nat.eqb_spec j x); [contradiction|reflexivity]]. now rewrite Nat.eqb_refl.
Qed.
Theorem hogbom_point n dirty gamma threshold niter C R : 0 < n ->
  hogbom_clean n n dirty (2 * n) (2 * n) (point_psf (n - 1) (n - 1)) gamma threshold niter = Ok (C, R) ->
  forall x y, in_image n n x y -> (C x y + R x y = dirty x y)%R.
Proof. intros Hn E x y I. rewrite (hogbom_conserves _ _ _ _ _ _ _ _ Hn E x y I), run_point by exact I. ring. Qed.
(* one pixel *)
Lemma one_cycle (d g : R) psf : (d <> 0)%R -> exists C R', hogbom_clean 1 1 (fun _ _ => d) 2 2 psf g (Some 0%R) (Some 0%Z) = Ok (C, R') /\ C 0 0 = (g * d)%R /\ R' 0 0 = (d - g * d * psf 0%nat 0%nat)%R.
Proof.
  intros Hd. destruct (hogbom_spec 1 (fun _ _ => d) psf g (Some 0%R) (Some 0%Z) ltac:(lia)) as (v & k & Cs & Rs & M & E & K & C0 & R0 & St & Sp).
  cbn [niter_of] in *. change (Z.to_nat (0 + 1)) with 1 in *.
  assert (V : forall r, r 0 0 = d -> forall w, is_max 1 1 r w -> w = d).
  { intros r Hr w [(x & y & [Hx Hy] & E1) _]. assert (x = 0) as -> by lia. assert (y = 0) as -> by lia. congruence. }
  destruct k as [|k].
  - exfalso. destruct (Sp ltac:(lia)) as (w & M' & L). rewrite R0 in M'. apply (V (fun _ _ => d) eq_refl) in M'. subst w. rewrite Rmult_0_l in L. pose proof (Rabs_pos_lt d Hd). lra.
  - assert (k = 0) as -> by lia. exists (Cs 1), (Rs 1). split; [exact E|]. destruct (St 0 ltac:(lia)) as (w & p & q & M' & ((Hp & Hq) & _) & _ & [HC HR]).
    rewrite R0 in *. apply (V (fun _ _ => d) eq_refl) in M'. subst w. assert (p = 0) as -> by lia. assert (q = 0) as -> by lia.
    rewrite HC, HR by (unfold in_image; lia). cbn [Nat.eqb andb Nat.sub Nat.add]. rewrite C0. split; ring.
Qed.
