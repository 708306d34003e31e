From Coq Require Import Reals Lra Ring.
From Verif Require Import Prelude PreludeFacts LoopFacts CRing CplxR UtilModel PredictModel PredictSpec PredictProofs DaskRimeModel DaskRimeProofs CohSpec
  CudaPredictModel CudaPredictSpec CudaPredictProofs CudaPredictProofs2 CudaPredictProofs3.
Open Scope nat_scope.

Lemma more_supplied a : more_than_base a -> supplied a.
Proof. unfold more_than_base, supplied. tauto. Qed.
Theorem cuda_cpu full nsrc nchan ncorr double x order und garbage a :
  shapes full nsrc nchan ncorr a -> (if full then ncorr = 2 else ncorr = 1 \/ ncorr = 2) ->
  paired (p_dde1 a) (p_dde2 a) -> paired (p_die1 a) (p_die2 a) -> more_than_base a -> 0 < p_nrow a ->
  indices_ok x a -> any_schedule double order ->
  exists gpu cpu, cuda_predict_vis (true, true, true) double x order und garbage a = Ok gpu /\ predict_vis a = Ok cpu /\
    v_ndim gpu = v_ndim cpu /\ v_row gpu = v_row cpu /\ v_chan gpu = v_chan cpu /\ v_corr gpu = v_corr cpu /\
    forall r f, r < p_nrow a -> f < nchan -> jeq full ncorr (v_at gpu r f) (v_at cpu r f).
Proof.
  intros Sh Hc P1 P2 Mo Hn Ix Sc.
  destruct (cuda_measurement full nsrc nchan ncorr double x order und garbage a) as (g & G & N1 & N2 & N3 & N4 & V); auto.
  destruct (predict_vis_spec RC_laws full nsrc nchan ncorr a) as (c & C & M1 & M2 & M3 & M4 & W); auto using more_supplied.
  exists g, c. split; [exact G|]. split; [exact C|]. do 4 (split; [congruence|]). intros r f Hr Hf i j O.
  assert (Hm := zmin_is_min (p_nrow a) (p_time a) Hn). rewrite (V _ Hm r f Hr Hf i j O). symmetry. exact (W _ Hm r f Hr Hf i j O).
Qed.

Lemma nodup_prod {A B} (l : list A) (l' : list B) : NoDup l -> NoDup l' -> NoDup (list_prod l l').
Proof.
  intros H H'. induction H as [|x l N H IH]; cbn; [constructor|].
  assert (K : NoDup (map (fun y => (x, y)) l')).
  { clear -H'. induction H' as [|y l' N H' IH]; cbn; constructor; auto. intros I. apply in_map_iff in I. destruct I as (y' & E & I). congruence. }
  assert (D : forall p, In p (map (fun y => (x, y)) l') -> ~ In p (list_prod l l')).
  { intros [a b] I J. apply in_map_iff in I. destruct I as (y & E & _). apply in_prod_iff in J. destruct J. congruence. }
  revert K D. generalize (map (fun y => (x, y)) l'). intros m K D. induction K as [|p m Np K IHm]; cbn; auto.
  constructor.
  - rewrite in_app_iff. intros [I|I]; [contradiction|]. apply (D p); cbn; auto.
  - apply IHm. intros q I. apply D. now right.
Qed.
Lemma row_major_ok double : any_schedule double (row_major double).
Proof.
  intros gx gy. unfold row_major. set (bd := if double then 24 else 32). split.
  - repeat apply nodup_prod; apply seq_NoDup.
  - intros [[bx by_] ty]. rewrite !in_prod_iff, !in_seq. unfold launched. lia.
Qed.
Lemma rev_ok double order : any_schedule double order -> any_schedule double (fun gx gy => rev (order gx gy)).
Proof. intros H gx gy. destruct (H gx gy) as [N I]. split; [now apply NoDup_rev|]. intros w. rewrite <- in_rev. apply I. Qed.

Definition ones : jones RC := fun _ _ => (1, 0)%R.
Definition four_in : predict_in RC :=
  {| p_nrow := 1; p_time := fun _ => 0%Z; p_ant1 := fun _ => 0; p_ant2 := fun _ => 0; p_dde1 := None; p_coh := None; p_dde2 := None;
     p_die1 := Some {| g_ndim := 4; g_chan := 1; g_corr := 4; g_at := fun _ _ _ => ones |};
     p_bvis := Some {| v_ndim := 3; v_row := 1; v_chan := 1; v_corr := 4; v_at := fun _ _ => ones |};
     p_die2 := Some {| g_ndim := 4; g_chan := 1; g_corr := 4; g_at := fun _ _ _ => ones |} |}.
Theorem four_differs : exists x a, shapes false 0 1 4 a /\ indices_ok x a /\
  forall double order und garbage, any_schedule double order ->
  exists gpu cpu, cuda_predict_vis (true, true, true) double x order und garbage a = Ok gpu /\ predict_vis a = Ok cpu /\
    v_at gpu 0 0 0 0 <> v_at cpu 0 0 0 0.
Proof.
  exists {| x_dde := (1, 1); x_die := (1, 1) |}, four_in.
  assert (Sh : shapes false 0 1 4 four_in) by (constructor; cbn; intros e E; try discriminate; injection E as <-; cbn; auto).
  assert (Ix : indices_ok {| x_dde := (1, 1); x_die := (1, 1) |} four_in).
  { split; [reflexivity|]. intros tmin r [[r' [Hr' <-]] _] Hr. cbn. split; intros _; lia. }
  split; [exact Sh|]. split; [exact Ix|]. intros double order und garbage Sc.
  assert (Hm : is_min (p_nrow four_in) (p_time four_in) 0%Z) by (split; [exists 0; cbn; lia|cbn; intros; lia]).
  destruct (cuda_four 0 1 double {| x_dde := (1, 1); x_die := (1, 1) |} order und garbage four_in) as (g & G & _ & _ & _ & _ & V); auto;
    try (cbn; split; discriminate); try (unfold paired; split; reflexivity); [right; right; discriminate|].
  destruct (predict_vis_spec RC_laws false 0 1 4 four_in) as (c & C & _ & _ & _ & _ & W); auto;
    try (cbn; split; discriminate); try (unfold paired; split; reflexivity); [unfold supplied; cbn; right; right; left; discriminate|].
  exists g, c. split; [exact G|]. split; [exact C|].
  specialize (V 0%Z Hm 0 0 0 0 ltac:(cbn; lia) ltac:(lia) ltac:(lia) ltac:(lia)). specialize (W 0%Z Hm 0 0 ltac:(cbn; lia) ltac:(lia) 0 0 ltac:(cbn; lia)).
  cbn [Nat.mul Nat.add] in V. rewrite V, W. cbn. intros E. injection E as E. lra.
Qed.

Theorem base_only full nchan ncorr double x order und garbage a b :
  shapes full 0 nchan ncorr a -> p_bvis a = Some b -> p_dde1 a = None -> p_dde2 a = None -> p_coh a = None -> p_die1 a = None -> p_die2 a = None -> 0 < p_nrow a ->
  cuda_predict_vis (true, true, true) double x order und garbage a = Raise compile_exn /\
  exists cpu, predict_vis a = Ok cpu /\ forall r f, r < p_nrow a -> f < nchan -> jeq full ncorr (v_at cpu r f) (v_at b r f).
Proof.
  intros Sh B D1 D2 X G1 G2 Hn. split.
  - destruct (sh_bvis _ _ _ _ _ Sh _ B) as (N & _).
    unfold cuda_predict_vis, corr_dims, output_shape, kernel_nchan, pair_of. rewrite B, D1, D2, X, G1, G2. cbn [bind have andb option_map].
    rewrite N. destruct full; cbn [Nat.sub Nat.eqb bind]; cbn [predict_checks have]; unfold warp_size;
      cbn [bind fst snd negb]; destruct double; cbn [grids length Nat.eqb negb grids_loop Z.eqb bind Z.of_nat]; destruct (Nat.eqb_spec (p_nrow a) 0); try lia; reflexivity.
  - destruct (predict_vis_spec RC_laws full 0 nchan ncorr a) as (c & C & _ & _ & _ & _ & W); auto.
    + unfold paired. rewrite D1, D2. tauto.
    + unfold paired. rewrite G1, G2. tauto.
    + unfold supplied. rewrite B. right. right. right. discriminate.
    + exists c. split; [exact C|]. intros r f Hr Hf i j O. rewrite (W _ (zmin_is_min _ _ Hn) r f Hr Hf i j O).
      unfold measurement, source_term. rewrite B, D1, D2, X, G1. unfold jadd, jzero. apply (Radd_0_l (law_ring RC RC_laws)).
Qed.

Lemma front_dims full nsrc nchan ncorr (a : predict_in RC) : shapes full nsrc nchan ncorr a -> paired (p_dde1 a) (p_dde2 a) -> paired (p_die1 a) (p_die2 a) -> supplied a ->
  corr_dims a = Ok (if full then 2 else 1).
Proof.
  intros Sh P1 P2 Sup. unfold corr_dims. destruct P1 as [P1 P1'], P2 as [P2 P2'].
  destruct (p_dde1 a) as [e1|] eqn:E1.
  - destruct (p_dde2 a) as [e2|]; [|discriminate (P1' eq_refl)]. destruct (sh_dde1 _ _ _ _ _ Sh _ E1) as (-> & _). destruct full; auto.
  - destruct (p_coh a) as [h|] eqn:Eh; [destruct (sh_coh _ _ _ _ _ Sh _ Eh) as (-> & _); destruct full; auto|].
    destruct (p_die1 a) as [g1|] eqn:Eg1.
    + destruct (p_die2 a) as [g2|]; [|discriminate (P2' eq_refl)]. destruct (sh_die1 _ _ _ _ _ Sh _ Eg1) as (-> & _). destruct full; auto.
    + destruct (p_bvis a) as [b|] eqn:Eb; [destruct (sh_bvis _ _ _ _ _ Sh _ Eb) as (-> & _); destruct full; auto|].
      unfold supplied in Sup. rewrite E1, Eh, Eg1, Eb in Sup. tauto.
Qed.
Lemma front_checks full nsrc nchan ncorr (a : predict_in RC) : shapes full nsrc nchan ncorr a -> paired (p_dde1 a) (p_dde2 a) -> paired (p_die1 a) (p_die2 a) ->
  let less := fun n => if full then n - 1 else n in
  let ddes := pair_of (p_dde1 a) (p_dde2 a) in
  let dies := pair_of (p_die1 a) (p_die2 a) in
  let nd1 := option_map (fun e => if ddes then less (d_ndim e) else d_ndim e) (p_dde1 a) in
  let nd2 := option_map (fun e => if ddes then match nd1 with Some n => n | None => 0 end else d_ndim e) (p_dde2 a) in
  let ng1 := option_map (fun g => if dies then less (g_ndim g) else g_ndim g) (p_die1 a) in
  let ng2 := option_map (fun g => if dies then match ng1 with Some n => n | None => 0 end else g_ndim g) (p_die2 a) in
  exists fl, predict_checks 1 1 1 nd1 (option_map (fun e => less (h_ndim e)) (p_coh a)) nd2 ng1 (option_map (fun e => less (v_ndim e)) (p_bvis a)) ng2 = Ok fl.
Proof.
  intros Sh P1 P2. cbn zeta. set (nd1 := option_map _ (p_dde1 a)). set (nd2 := option_map _ (p_dde2 a)). set (nx := option_map _ (p_coh a)).
  set (ng1 := option_map _ (p_die1 a)). set (ng2 := option_map _ (p_die2 a)). set (nb := option_map _ (p_bvis a)).
  assert (N1 : nd1 = match p_dde1 a with Some _ => Some 5 | None => None end).
  { subst nd1. destruct P1 as [P1 P1']. destruct (p_dde1 a) as [e|] eqn:E; [|reflexivity]. destruct (p_dde2 a); [|discriminate (P1' eq_refl)].
    destruct (sh_dde1 _ _ _ _ _ Sh _ E) as (D & _). cbn. rewrite D. destruct full; reflexivity. }
  assert (N2 : nd2 = match p_dde2 a with Some _ => Some 5 | None => None end).
  { subst nd2. rewrite N1. destruct P1 as [P1 P1']. destruct (p_dde2 a) as [e|] eqn:E; [|reflexivity]. destruct (p_dde1 a); [reflexivity|discriminate (P1 eq_refl)]. }
  assert (N3 : nx = match p_coh a with Some _ => Some 4 | None => None end).
  { subst nx. destruct (p_coh a) as [e|] eqn:E; [|reflexivity]. destruct (sh_coh _ _ _ _ _ Sh _ E) as (D & _). cbn. rewrite D. destruct full; reflexivity. }
  assert (N4 : ng1 = match p_die1 a with Some _ => Some 4 | None => None end).
  { subst ng1. destruct P2 as [P2 P2']. destruct (p_die1 a) as [e|] eqn:E; [|reflexivity]. destruct (p_die2 a); [|discriminate (P2' eq_refl)].
    destruct (sh_die1 _ _ _ _ _ Sh _ E) as (D & _). cbn. rewrite D. destruct full; reflexivity. }
  assert (N5 : ng2 = match p_die2 a with Some _ => Some 4 | None => None end).
  { subst ng2. rewrite N4. destruct P2 as [P2 P2']. destruct (p_die2 a) as [e|] eqn:E; [|reflexivity]. destruct (p_die1 a); [reflexivity|discriminate (P2 eq_refl)]. }
  assert (N6 : nb = match p_bvis a with Some _ => Some 3 | None => None end).
  { subst nb. destruct (p_bvis a) as [e|] eqn:E; [|reflexivity]. destruct (sh_bvis _ _ _ _ _ Sh _ E) as (D & _). cbn. rewrite D. destruct full; reflexivity. }
  rewrite N1, N2, N3, N4, N5, N6. destruct P1 as [P1 P1'], P2 as [P2 P2'].
  destruct (p_dde1 a), (p_dde2 a); try discriminate (P1 eq_refl); try discriminate (P1' eq_refl);
  destruct (p_die1 a), (p_die2 a); try discriminate (P2 eq_refl); try discriminate (P2' eq_refl);
  destruct (p_coh a), (p_bvis a); eexists; reflexivity.
Qed.
Theorem types_raise full nsrc nchan ncorr t1 t2 t3 double x order und garbage a :
  shapes full nsrc nchan ncorr a -> paired (p_dde1 a) (p_dde2 a) -> paired (p_die1 a) (p_die2 a) -> supplied a ->
  (t1 && t2 && t3)%bool = false ->
  cuda_predict_vis (t1, t2, t3) double x order und garbage a = Raise TypeError.
Proof.
  intros Sh P1 P2 Sup T. unfold cuda_predict_vis. rewrite (front_dims _ _ _ _ _ Sh P1 P2 Sup), (shape_ok _ _ _ _ _ Sh P1 P2 Sup). cbn [bind].
  replace (if Nat.eqb (if full then 2 else 1) 2 then Ok true else if Nat.eqb (if full then 2 else 1) 1 then Ok false else Raise ValueError) with (Ok full) by (destruct full; reflexivity).
  cbn [bind]. destruct (front_checks _ _ _ _ _ Sh P1 P2) as [fl F]. cbn zeta in F. rewrite F. cbn [bind fst snd].
  destruct t1, t2, t3; try discriminate; reflexivity.
Qed.
Theorem empty_raises types double x order und garbage a : ~ supplied a -> cuda_predict_vis types double x order und garbage a = Raise ValueError.
Proof.
  intros H. unfold supplied in H. unfold cuda_predict_vis, corr_dims.
  destruct (p_dde1 a); [exfalso; apply H; left; discriminate|]. destruct (p_coh a); [exfalso; apply H; right; left; discriminate|].
  destruct (p_die1 a); [exfalso; apply H; right; right; left; discriminate|]. destruct (p_bvis a); [exfalso; apply H; right; right; right; discriminate|]. reflexivity.
Qed.
Theorem corr_dims_raise types double x order und garbage a n : corr_dims a = Ok n -> n <> 1 -> n <> 2 -> cuda_predict_vis types double x order und garbage a = Raise ValueError.
Proof.
  intros E N1 N2. unfold cuda_predict_vis. rewrite E. cbn [bind].
  assert (O : exists s, output_shape a = Ok s).
  { unfold corr_dims, output_shape in *. destruct (p_dde1 a), (p_dde2 a), (p_coh a), (p_die1 a), (p_die2 a), (p_bvis a); try discriminate; eexists; reflexivity. }
  destruct O as [[[r c] k] ->]. cbn [bind]. destruct (Nat.eqb_spec n 2); [contradiction|]. destruct (Nat.eqb_spec n 1); [contradiction|]. reflexivity.
Qed.
Theorem other_corrs full nsrc nchan ncorr double x order und garbage a :
  shapes full nsrc nchan ncorr a -> (if full then 3 <= ncorr else ncorr <> 1 /\ ncorr <> 2 /\ ncorr <> 4) -> paired (p_dde1 a) (p_dde2 a) -> paired (p_die1 a) (p_die2 a) ->
  p_dde1 a <> None \/ p_die1 a <> None -> 0 < p_nrow a ->
  cuda_predict_vis (true, true, true) double x order und garbage a = Raise compile_exn.
Proof.
  intros Sh CC P1 P2 D Hn. assert (Sup : supplied a) by (unfold supplied; tauto).
  unfold cuda_predict_vis. rewrite (front_dims _ _ _ _ _ Sh P1 P2 Sup), (shape_ok _ _ _ _ _ Sh P1 P2 Sup). cbn [bind].
  replace (if Nat.eqb (if full then 2 else 1) 2 then Ok true else if Nat.eqb (if full then 2 else 1) 1 then Ok false else Raise ValueError) with (Ok full) by (destruct full; reflexivity). cbn [bind].
  destruct (front_checks _ _ _ _ _ Sh P1 P2) as [fl F]. cbn zeta in F. rewrite F. cbn [bind fst snd negb].
  set (bd := if double then 24 else 32).
  assert (GE : exists g, grids [Z.of_nat (nchan * flat_corrs full ncorr); Z.of_nat (p_nrow a); 1%Z] [Z.of_nat warp_size; Z.of_nat bd; 1%Z] = Ok g) by (unfold bd; destruct double; eexists; reflexivity).
  destruct GE as [g ->]. cbn [bind]. destruct (Nat.eqb_spec (p_nrow a) 0); [lia|].
  assert (KN : exists n, kernel_nchan a = Ok n).
  { unfold kernel_nchan. destruct P1 as [P1 P1'], P2 as [P2 P2']. destruct (p_dde1 a).
    - destruct (p_dde2 a); [eexists; reflexivity|discriminate (P1' eq_refl)].
    - destruct (p_die1 a); [|destruct D as [D|D]; congruence]. destruct (p_die2 a); [eexists; reflexivity|discriminate (P2' eq_refl)]. }
  destruct KN as [n0 ->]. cbn [bind]. unfold jm_ok.
  assert (C1 : flat_corrs full ncorr <> 1 /\ flat_corrs full ncorr <> 2 /\ flat_corrs full ncorr <> 4) by (destruct full; cbn [flat_corrs]; [nia|exact CC]). destruct C1 as (C1 & C2 & C4).
  destruct (Nat.eqb_spec (flat_corrs full ncorr) 1); [contradiction|]. destruct (Nat.eqb_spec (flat_corrs full ncorr) 2); [contradiction|]. destruct (Nat.eqb_spec (flat_corrs full ncorr) 4); [contradiction|].
  destruct (p_dde1 a); cbn [have orb negb]; [reflexivity|]. destruct (p_die1 a); [reflexivity|]. destruct D as [D|D]; congruence.
Qed.

(* 1x1 matrices: products of their elements *)
Theorem cuda_one nsrc nchan double x order und garbage a :
  shapes true nsrc nchan 1 a -> paired (p_dde1 a) (p_dde2 a) -> paired (p_die1 a) (p_die2 a) -> more_than_base a -> 0 < p_nrow a ->
  indices_ok x a -> any_schedule double order ->
  exists out, cuda_predict_vis (true, true, true) double x order und garbage a = Ok out /\
    v_ndim out = 4 /\ v_row out = p_nrow a /\ v_chan out = nchan /\ v_corr out = 1 /\
    forall tmin, is_min (p_nrow a) (p_time a) tmin -> forall r f, r < p_nrow a -> f < nchan ->
      v_at out r f 0 0 = measurement false (Z.to_nat (p_time a r - tmin)) a r f 0 0.
Proof.
  intros Sh P1 P2 Mo Hn Ix Sc.
  destruct (cuda_core true nsrc nchan 1 false double x order und garbage a a) as (out & E & N1 & N2 & N3 & N4 & V); auto.
  - assert (S : forall J, same_corrs true 1 (flat_corrs true 1) false J J) by (intros J [|c] Hc; [reflexivity|cbn in Hc; lia]).
    constructor; auto; match goal with |- match ?x with _ => _ end => destruct x; auto end.
  - cbn. lia.
  - exists out. split; [exact E|]. do 4 (split; [assumption|]). intros tmin Hm r f Hr Hf.
    rewrite (V tmin Hm r f 0 0 Hr Hf) by (cbn; lia). reflexivity.
Qed.

(* no antenna terms: any number of correlations *)
Definition reread (full : bool) (nc : nat) (m : bool) (J : jones RC) : jones RC :=
  if m then fun i k => corr_at full nc J (2 * i + k) else fun c _ => corr_at full nc J c.
Definition rereads (full : bool) (nc : nat) (m : bool) (a : predict_in RC) : predict_in RC :=
  {| p_nrow := p_nrow a; p_time := p_time a; p_ant1 := p_ant1 a; p_ant2 := p_ant2 a; p_dde1 := None;
     p_coh := option_map (fun e => {| h_ndim := h_ndim e; h_src := h_src e; h_row := h_row e; h_chan := h_chan e; h_corr := h_corr e; h_at := fun s r f => reread full nc m (h_at e s r f) |}) (p_coh a);
     p_dde2 := None; p_die1 := None;
     p_bvis := option_map (fun e => {| v_ndim := v_ndim e; v_row := v_row e; v_chan := v_chan e; v_corr := v_corr e; v_at := fun r f => reread full nc m (v_at e r f) |}) (p_bvis a);
     p_die2 := None |}.
Lemma reread_same full nc corrs m J : same_corrs full nc corrs m J (reread full nc m J).
Proof. intros c _. unfold reread. destruct m; cbn [corr_at]; [|reflexivity]. f_equal. apply Nat.div_mod. lia. Qed.
Theorem cuda_sum full nsrc nchan ncorr double x order und garbage a h :
  shapes full nsrc nchan ncorr a -> 0 < ncorr -> p_coh a = Some h -> p_dde1 a = None -> p_dde2 a = None -> p_die1 a = None -> p_die2 a = None -> 0 < p_nrow a ->
  any_schedule double order ->
  exists out, cuda_predict_vis (true, true, true) double x order und garbage a = Ok out /\
    v_ndim out = (if full then 4 else 3) /\ v_row out = p_nrow a /\ v_chan out = nchan /\ v_corr out = ncorr /\
    forall r f i j, r < p_nrow a -> f < nchan -> i < ncorr -> (if full then j < ncorr else j = 0) ->
      v_at out r f i j = cadd (csum nsrc (fun s => h_at h s r f i j)) (match p_bvis a with Some b => v_at b r f i j | None => c0 end).
Proof.
  intros Sh Hc Eh E1 E2 G1 G2 Hn Sc. set (m := Nat.eqb (flat_corrs full ncorr) 4).
  destruct (cuda_core full nsrc nchan ncorr m double x order und garbage a (rereads full ncorr m a)) as (out & E & N1 & N2 & N3 & N4 & V); auto.
  - constructor; auto; cbn [rereads p_dde1 p_dde2 p_coh p_die1 p_die2 p_bvis]; rewrite ?E1, ?E2, ?G1, ?G2; auto.
    + destruct (p_coh a); cbn; auto. split; [reflexivity|]. intros; apply reread_same.
    + destruct (p_bvis a); cbn; auto. intros; apply reread_same.
  - unfold m. destruct (Nat.eqb_spec (flat_corrs full ncorr) 4); assumption.
  - destruct full; cbn; [nia|lia].
  - unfold jm_ok. rewrite E1, G1. cbn. rewrite !Bool.orb_true_r. reflexivity.
  - split; intros; assumption || congruence.
  - split; intros; assumption || congruence.
  - right. left. congruence.
  - split; [congruence|]. intros. split; congruence.
  - exists out. split; [exact E|]. do 4 (split; [assumption|]). intros r f i j Hr Hf Hi Hj.
    pose proof (zmin_is_min (p_nrow a) (p_time a) Hn) as Hm. set (tmin := zmin (p_nrow a) (p_time a)) in *.
    set (c := if full then i * ncorr + j else i) in *.
    assert (Cc : c < flat_corrs full ncorr) by (unfold c; destruct full; cbn; [nia|lia]).
    rewrite (V tmin Hm r f i j Hr Hf Cc). fold c.
    assert (CJ : forall J : jones RC, corr_at full ncorr J c = J i j).
    { intros J. unfold c, corr_at. destruct full; [|now rewrite Hj]. rewrite Nat.div_add_l, Nat.div_small, Nat.add_0_r by lia. rewrite Nat.add_comm, Nat.mod_add, Nat.mod_small by lia. reflexivity. }
    unfold measurement, source_term, rereads. cbn [p_dde1 p_dde2 p_coh p_die1 p_die2 p_bvis]. rewrite Eh. cbn [option_map]. unfold jsum, jadd.
    destruct (sh_coh _ _ _ _ _ Sh _ Eh) as (_ & Es & _).
    destruct m.
    + cbn [corr_at]. cbn [h_src h_at]. rewrite Es. f_equal.
      * apply csum_ext. intros s _. unfold reread. rewrite <- Nat.div_mod by lia. apply CJ.
      * destruct (p_bvis a); cbn [option_map v_at]; [|reflexivity]. unfold reread. rewrite <- Nat.div_mod by lia. apply CJ.
    + cbn [corr_at]. cbn [h_src h_at]. rewrite Es. f_equal.
      * apply csum_ext. intros s _. unfold reread. apply CJ.
      * destruct (p_bvis a); cbn [option_map v_at]; [|reflexivity]. unfold reread. apply CJ.
Qed.

Definition case_in : predict_in RC :=
  {| p_nrow := 40; p_time := fun r => Z.of_nat (r / 20 + 7); p_ant1 := fun r => r mod 3; p_ant2 := fun r => r mod 2;
     p_dde1 := Some {| d_ndim := 6; d_src := 3; d_chan := 10; d_corr := 2; d_at := fun _ _ _ _ => ones |};
     p_coh := Some {| h_ndim := 5; h_src := 3; h_row := 40; h_chan := 10; h_corr := 2; h_at := fun _ _ _ => ones |};
     p_dde2 := Some {| d_ndim := 6; d_src := 3; d_chan := 10; d_corr := 2; d_at := fun _ _ _ _ => ones |};
     p_die1 := Some {| g_ndim := 5; g_chan := 10; g_corr := 2; g_at := fun _ _ _ => ones |};
     p_bvis := Some {| v_ndim := 4; v_row := 40; v_chan := 10; v_corr := 2; v_at := fun _ _ => ones |};
     p_die2 := Some {| g_ndim := 5; g_chan := 10; g_corr := 2; g_at := fun _ _ _ => ones |} |}.
Lemma case_full : exists x a order, shapes true 3 10 2 a /\ paired (p_dde1 a) (p_dde2 a) /\ paired (p_die1 a) (p_die2 a) /\ more_than_base a /\ 0 < p_nrow a /\
  indices_ok x a /\ any_schedule false order /\ order 2 2 <> row_major false 2 2.
Proof.
  exists {| x_dde := (2, 3); x_die := (2, 3) |}, case_in, (fun gx gy => rev (row_major false gx gy)).
  split; [constructor; cbn; intros e E; injection E as <-; cbn; auto|].
  split; [split; discriminate|]. split; [split; discriminate|]. split; [left; discriminate|]. split; [cbn; lia|]. split; [|split].
  - split; [reflexivity|]. intros tmin r [[r' [Hr' <-]] M] Hr. cbn [case_in p_nrow p_time p_ant1 p_ant2 p_dde1 p_die1] in *.
    assert (r / 20 <= 1) by (apply Nat.lt_succ_r, Nat.div_lt_upper_bound; lia). assert (A := Nat.mod_upper_bound r 3 ltac:(lia)). assert (B := Nat.mod_upper_bound r 2 ltac:(lia)).
    cbn -[Nat.div Nat.modulo Z.of_nat]. split; intros _; lia.
  - apply rev_ok, row_major_ok.
  - vm_compute. discriminate.
Qed.
