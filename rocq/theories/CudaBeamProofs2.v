From Coq Require Import Reals Lra.
From Verif Require Import Prelude PreludeFacts LoopFacts CRing CplxR UtilModel BeamModel BeamSpec BeamProofs BeamProofs2 BeamProofs3 DaskRimeModel DaskRimeProofs CohSpec
  CudaModel CudaSpec CudaProofs CudaRimeModel CudaRimeProofs CudaBeamModel CudaBeamSpec CudaBeamProofs.
Open Scope nat_scope.

(* ---------- one thread computes what the CPU computes ---------- *)
Lemma memory_at {A} shape (at_ : list nat -> A) idx i : inside idx shape -> i = ravel shape idx -> memory shape at_ i = at_ idx.
Proof. intros H ->. unfold memory. now rewrite unravel_ravel. Qed.
Ltac insides := repeat (apply Forall2_cons; [try lia; auto|]); apply Forall2_nil.
Definition cube_memory (b : cube) (ncorr : nat) : nat -> RC :=
  memory [b_lw b; b_mh b; b_nud b; ncorr] (fun i => match i with [l; m; f; c] => b_at b l m f c | _ => c0 end).
Lemma clamps lo hi x : (lo <= hi)%R -> Rmin hi (Rmax lo x) = Rmax lo (Rmin x hi).
Proof. intros H. unfold Rmin, Rmax. repeat destruct (Rle_dec _ _); lra. Qed.
Lemma Int_part_nat k : Int_part (IZR (Z.of_nat k)) = Z.of_nat k.
Proof. rewrite <- INR_IZR_INZ. apply Int_part_INR. Qed.
Lemma trilinear_ok b ncorr c p q r (pz qz rz : Z) w pol ab : pz = Z.of_nat p -> qz = Z.of_nat q -> rz = Z.of_nat r ->
  p < b_lw b -> q < b_mh b -> r < b_nud b -> c < ncorr ->
  trilinear (cube_memory b ncorr) (b_mh b) (b_nud b) ncorr c pz qz rz w (pol, ab) =
  (cadd pol (cmul (ofR w) (b_at b p q r c)), (ab + w * cabs (b_at b p q r c))%R).
Proof.
  intros -> -> -> Hp Hq Hr Hc. unfold trilinear. rewrite !Nat2Z.id. unfold cube_memory.
  rewrite (memory_at _ _ [p; q; r; c]); [|insides|cbn [ravel prodn]; ring].
  destruct pol as [u v], (b_at b p q r c) as [x y]. cbn [fst snd]. unfold cabs, norm2, ofR. cbn. f_equal. f_equal; ring.
Qed.
Lemma norm_ok (pol : RC) ab : let s := (fst pol * fst pol + snd pol * snd pol)%R in let norm := if Req_EM_T s 0 then 1%R else (/ sqrt s)%R in
  ((fst pol * (norm * ab))%R, (snd pol * (norm * ab))%R) = normalise ab pol.
Proof.
  destruct pol as [x y]. cbn [fst snd]. cbv zeta. unfold normalise, cabs, norm2, re, im. cbn [fst snd].
  destruct (Req_EM_T (x * x + y * y) 0) as [E|E].
  - rewrite E, sqrt_0. destruct (Req_EM_T 0 0) as [_|N]; [|lra]. unfold ofR. cbn. f_equal; ring.
  - destruct (Req_EM_T (sqrt (x * x + y * y)) 0) as [F|F]; [apply sqrt_eq_0 in F; [lra|nra]|].
    unfold ofR, Rdiv. cbn. f_equal; ring.
Qed.
Lemma thread_value_ok b ncorr c el eu ml mu x y pa pex pey asx asy sc w k v : 2 <= b_lw b -> 2 <= b_mh b -> S k < b_nud b -> c < ncorr ->
  beam_point b el eu ml mu x y (sin pa) (cos pa) pex pey asx asy (sc, w, Z.of_nat k) = Ok v ->
  thread_value (cube_memory b ncorr) (b_lw b) (b_mh b) (b_nud b) ncorr c el ml (IZR (Z.of_nat (b_lw b) - 1) / (eu - el)) (IZR (Z.of_nat (b_mh b) - 1) / (mu - ml))
    (sin pa) (cos pa) pex pey asx asy sc w (IZR (Z.of_nat k)) x y = v c.
Proof.
  intros Hl Hm Hk Hc. unfold beam_point, thread_value. cbv zeta. rewrite Int_part_nat.
  assert (Ll : (0 <= IZR (Z.of_nat (b_lw b) - 1))%R) by (apply IZR_le; lia). assert (Lm : (0 <= IZR (Z.of_nat (b_mh b) - 1))%R) by (apply IZR_le; lia).
  rewrite !clamps by auto.
  match goal with |- context [Rmax 0 (Rmin ?a (IZR (Z.of_nat (b_lw b) - 1)))] => set (X := Rmax 0 (Rmin a (IZR (Z.of_nat (b_lw b) - 1)))) end.
  match goal with |- context [Rmax 0 (Rmin ?a (IZR (Z.of_nat (b_mh b) - 1)))] => set (Y := Rmax 0 (Rmin a (IZR (Z.of_nat (b_mh b) - 1)))) end.
  assert (RX : (0 <= X <= INR (b_lw b) - 1)%R).
  { unfold X. rewrite INR_IZR_INZ, <- minus_IZR. split; [apply Rmax_l|apply Rmax_lub; [auto|apply Rmin_r]]. }
  assert (RY : (0 <= Y <= INR (b_mh b) - 1)%R).
  { unfold Y. rewrite INR_IZR_INZ, <- minus_IZR. split; [apply Rmax_l|apply Rmax_lub; [auto|apply Rmin_r]]. }
  destruct (spot_of (b_lw b) X) as (i & Ei & Si & Fi); [lia|auto|]. destruct (spot_of (b_mh b) Y) as (j & Ej & Sj & Fj); [lia|auto|].
  rewrite Fi, Fj, Ei, Ej. clearbody X Y. set (i1 := Nat.min (S i) (b_lw b - 1)). set (j1 := Nat.min (S j) (b_mh b - 1)).
  assert (E1 : Z.min (Z.of_nat i + 1) (Z.of_nat (b_lw b) - 1) = Z.of_nat i1) by (unfold i1; lia).
  assert (E2 : Z.min (Z.of_nat j + 1) (Z.of_nat (b_mh b) - 1) = Z.of_nat j1) by (unfold j1; lia). rewrite E1, E2.
  assert (H1 : i1 < b_lw b) by (unfold i1; lia). assert (H2 : j1 < b_mh b) by (unfold j1; lia).
  assert (H3 : i < b_lw b) by (destruct Si; auto). assert (H4 : j < b_mh b) by (destruct Sj; auto).
  assert (G : forall (p q r : nat) rz wt st, rz = Z.of_nat r -> p < b_lw b -> q < b_mh b -> r < b_nud b ->
     accumulate b (Z.of_nat p) (Z.of_nat q) rz wt st =
     Ok (fun c => (fst st c + wt * cabs (b_at b p q r c))%R, fun c => cadd (snd st c) (cmul (ofR wt) (b_at b p q r c)))).
  { intros p q r rz wt st -> Hp Hq Hr. unfold accumulate. now rewrite (cube_get_ok b _ _ _ p q r). }
  rewrite (G i j k) by (auto; lia). cbn [bind]. rewrite (G i1 j k) by (auto; lia). cbn [bind].
  rewrite (G i j1 k) by (auto; lia). cbn [bind]. rewrite (G i1 j1 k) by (auto; lia). cbn [bind].
  rewrite (G i j (S k)) by (auto; lia). cbn [bind]. rewrite (G i1 j (S k)) by (auto; lia). cbn [bind].
  rewrite (G i j1 (S k)) by (auto; lia). cbn [bind]. rewrite (G i1 j1 (S k)) by (auto; lia). cbn [bind fst snd].
  intros [= <-]. cbv beta.
  rewrite (trilinear_ok b ncorr c i j k) by (auto; lia). rewrite (trilinear_ok b ncorr c i1 j k) by (auto; lia).
  rewrite (trilinear_ok b ncorr c i j1 k) by (auto; lia). rewrite (trilinear_ok b ncorr c i1 j1 k) by (auto; lia).
  rewrite (trilinear_ok b ncorr c i j (S k)) by (auto; lia). rewrite (trilinear_ok b ncorr c i1 j (S k)) by (auto; lia).
  rewrite (trilinear_ok b ncorr c i j1 (S k)) by (auto; lia). rewrite (trilinear_ok b ncorr c i1 j1 (S k)) by (auto; lia).
  cbn [fst snd]. rewrite <- norm_ok. reflexivity.
Qed.

(* ---------- the CPU function, for any frequency map ---------- *)
Lemma point_any b ext g l m pa pel pem asl asm f : 2 <= b_lw b -> 2 <= b_mh b -> 2 <= b_nud b ->
  exists v, point b ext g l m pa pel pem asl asm f = Ok v.
Proof.
  intros Hl Hm Hn. destruct (interp_plane (b_nud b) g f Hn) as (sc & w & k & E & Hk). unfold point. rewrite E.
  destruct (beam_point_ok b (ext 0 0) (ext 0 1) (ext 1 0) (ext 1 1) l m pa pel pem asl asm sc w k Hl Hm Hk) as (v & Ev & _). eauto.
Qed.
Lemma dde_any b ext g nsrc lm nt na pa pe asc nf fr : 2 <= b_lw b -> 2 <= b_mh b -> 2 <= b_nud b ->
  exists out, beam_cube_dde b ext (b_nud b) g nsrc lm nt na pa pe asc nf fr = Ok out /\
    forall s t a f, s < nsrc -> t < nt -> a < na -> f < nf ->
      point b ext g (lm s 0) (lm s 1) (pa t a) (pe t a f 0) (pe t a f 1) (asc a f 0) (asc a f 1) (fr f) = Ok (out s t a f).
Proof.
  intros Hl Hm Hn. unfold beam_cube_dde. rewrite !(proj2 (Nat.ltb_ge _ _)) by auto. cbn [orb].
  set (v := fun s t a f => ok_or (fun _ => c0) (point b ext g (lm s 0) (lm s 1) (pa t a) (pe t a f 0) (pe t a f 1) (asc a f 0) (asc a f 1) (fr f))).
  assert (V : forall s t a f, point b ext g (lm s 0) (lm s 1) (pa t a) (pe t a f 0) (pe t a f 1) (asc a f 0) (asc a f 1) (fr f) = Ok (v s t a f)).
  { intros s t a f. unfold v. destruct (point_any b ext g (lm s 0) (lm s 1) (pa t a) (pe t a f 0) (pe t a f 1) (asc a f 0) (asc a f 1) (fr f) Hl Hm Hn) as (v' & ->). reflexivity. }
  rewrite (forM_pure nt _ (fun t => for_ na (fun a => for_ nsrc (fun s => for_ nf (fun f st => upd4 st s t a f (v s t a f)))))).
  - eexists. split; [reflexivity|]. intros s t a f Hs Ht Ha Hf. rewrite fill4 by auto. apply V.
  - intros t st _. apply forM_pure. intros a st1 _. apply forM_pure. intros s st2 _. apply forM_pure. intros f st3 _.
    fold (point b ext g (lm s 0) (lm s 1) (pa t a) (pe t a f 0) (pe t a f 1) (asc a f 0) (asc a f 1) (fr f)). rewrite V. reflexivity.
Qed.
