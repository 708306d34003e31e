From Coq Require Import Reals Lra.
From Verif Require Import Prelude PreludeFacts LoopFacts CRing CplxR UtilModel BeamModel BeamSpec BeamProofs BeamProofs2 BeamProofs3 DaskRimeModel DaskRimeProofs CohSpec
  CudaModel CudaSpec CudaProofs CudaRimeModel CudaRimeProofs CudaBeamModel CudaBeamSpec CudaBeamProofs CudaBeamProofs2 CudaBeamProofs3 CudaBeamProofs4.
Open Scope nat_scope.

(* ---------- more than 1024 channels ---------- *)
Lemma far_map n f up : 2 <= n -> exists g : arr R, exists sc k, freq_grid_interp n g f = (sc, (if up : bool then 1 else 0)%R, k).
Proof.
  intros Hn. set (g := fun i => (f + (if up then 1 else - INR n) + INR i)%R).
  assert (HI : increasing n g). { intros i Hi. unfold g. rewrite S_INR. lra. }
  destruct (freq_grid_spec n g f Hn HI) as (sc & w & k & E & P & Hk). exists g, sc, (Z.of_nat k). rewrite E. repeat f_equal.
  destruct up.
  - destruct (freq_plane_unique n g f sc w k (f / g 0) 1 0) as (_ & -> & _); auto. apply below. unfold g. cbn. lra.
  - destruct (freq_plane_unique n g f sc w k (f / g (n - 1)%nat) 0 (n - 2)) as (_ & -> & _); auto. apply above. unfold g. rewrite minus_INR by lia. cbn. lra.
Qed.
Theorem many_channels lockstep bt b ncorr ext g nsrc lm ntime na pa pe asc nchan fr : bt <> NotComplex -> 2 <= b_lw b -> 2 <= b_mh b -> 2 <= b_nud b < 128 ->
  ncorr = 1 \/ ncorr = 2 \/ ncorr = 4 -> 1024 < nchan ->
  exists k1 k2, cuda_beam_cube_dde lockstep bt b ncorr ext (b_nud b) g nsrc lm ntime na pa pe asc nchan fr = Ok (k1, k2) /\
    exists h, forall o n s, runs k1 n (init h o) s -> finished k1 s -> Some (st_out s [1; 1024]) <> freq_out (b_nud b) nchan (fun _ => g) fr [1; 1024].
Proof.
  intros HT Hl Hm Hn HC Hf. destruct (launch lockstep bt b ncorr ext (b_nud b) g nsrc lm ntime na pa pe asc nchan fr HT Hl Hm Hn HC) as (shift & Hs & E).
  rewrite E. eexists _, _. split; [reflexivity|]. assert (B10 : 2 ^ 10 = 1024) by reflexivity. rewrite B10.
  set (big := 1024) in *. assert (Hb : big = 1024) by reflexivity. clearbody big.
  unfold freq_out. rewrite (proj2 (Nat.ltb_lt big nchan)) by auto. cbn [Nat.ltb Nat.leb andb].
  destruct (freq_grid_interp (b_nud b) g (fr big)) as [[sc0 w0] k0] eqn:EC.
  assert (Hup : exists up : bool, w0 <> (if up then 1 else 0)%R). { destruct (Req_EM_T w0 1); [exists false|exists true]; lra. }
  destruct Hup as (up & NE). destruct (far_map (b_nud b) (fr big) up ltac:(lia)) as (far & sc & kk & EF).
  exists (fun _ l => match l with [i] => far i | _ => 0%R end). intros o n s R Fi.
  assert (L := freq_leaves big (dim nchan big) beam_nud_limit (b_nud b) nchan g fr ltac:(lia) ltac:(rewrite limit_128; lia) ltac:(rewrite limit_128; lia)
     (fun c Hc => cover_dim nchan big c ltac:(lia) Hc) (fun _ l => match l with [i] => far i | _ => 0%R end) o).
  destruct L as [_ L]. destruct (L n s R) as [_ F]. rewrite (F Fi). unfold freq_out. rewrite (proj2 (Nat.ltb_lt big nchan)) by auto. cbn [Nat.ltb Nat.leb andb].
  rewrite Nat.div_same by lia.
  rewrite (interp_ext (b_nud b) _ far); [|lia|reflexivity]. rewrite EF. intros [= Q]. apply NE. symmetry. exact Q.
Qed.

(* ---------- the small beam ---------- *)
Lemma toy_increasing : increasing 2 toy_map.
Proof. intros i H. unfold toy_map. rewrite !S_INR. lra. Qed.
Lemma axis2 lo hi v : axis_pos 2 lo hi v = clamp 0 1 ((v - lo) * (1 / (hi - lo))).
Proof. unfold axis_pos. cbn [INR]. f_equal; [lra|]. f_equal. f_equal. lra. Qed.
Lemma clamp_at lo hi x y : (lo <= hi)%R -> (x <= lo /\ y = lo \/ hi <= x /\ y = hi)%R -> clamp lo hi x = y.
Proof. intros H C. unfold clamp, Rmax, Rmin. repeat destruct (Rle_dec _ _); lra. Qed.
Lemma toy_cpu_value nchan : 0 < nchan -> exists out, toy_cpu nchan = Ok out /\ out 0 0 0 0 0 = ofR 2.
Proof.
  intros H. destruct (dde_node toy_cube toy_ext toy_map 1 toy_lm 1 1 (fun _ _ => 0%R) (fun _ _ _ _ => 0%R) (fun _ _ _ => 1%R) nchan (fun _ => 1%R)) as (out & E & V); try (cbn; lia).
  - exact toy_increasing.
  - unfold toy_map. cbn. lra.
  - exists out. split; [exact E|]. rewrite (V 0 0 0 0 0 1 0 0); try (cbn; lia); try reflexivity; auto.
    + cbn [b_lw toy_cube]. rewrite axis2. unfold beam_l, toy_lm, toy_ext. cbn [INR]. rewrite cos_0, sin_0. apply clamp_at; [lra|]. right. split; [lra|reflexivity].
    + cbn [b_mh toy_cube]. rewrite axis2. unfold beam_m, toy_lm, toy_ext. cbn [INR]. rewrite cos_0, sin_0. apply clamp_at; [lra|]. left. split; [lra|reflexivity].
Qed.
Lemma toy_interp : exists k : nat, freq_grid_interp 2 toy_map 1 = (1%R, 1%R, Z.of_nat k) /\ k = 0.
Proof.
  destruct (freq_grid_spec 2 toy_map 1 ltac:(lia) toy_increasing) as (sc & w & k & E & P & Hk).
  assert (k = 0) as -> by lia. exists 0. split; [|reflexivity]. rewrite E. 
  destruct (freq_plane_unique 2 toy_map 1 sc w 0 1 ((toy_map 1 - 1) / (toy_map 1 - toy_map 0)) 0) as (-> & -> & _); auto.
  - exact toy_increasing.
  - apply within; [lia|]. unfold toy_map. cbn. lra.
  - repeat f_equal. unfold toy_map. cbn. field.
Qed.
(* with -1 for the upper end of l the source is read at l = 0 *)
Lemma toy_wrong nchan shift fd e : 0 < nchan -> 1 = 2 ^ shift -> fd [0; 0] = 1%R -> fd [1; 0] = 1%R -> fd [2; 0] = 0%R -> e 0 = 0%R -> e 2 = 0%R ->
  seen_value (args_of toy_cube 1 toy_ext 1 toy_lm 1 1 (fun _ _ => 0%R) (fun _ _ _ _ => 0%R) (fun _ _ _ => 1%R) nchan shift fd) e (-1) 1 0 0 0 0 = ofR 1.
Proof.
  intros Hn Hs F0 F1 F2 E0 E2.
  destruct (beam_point_ok toy_cube 0 (-1) 0 1 1 0 0 0 0 1 1 1 1 0 ltac:(cbn; lia) ltac:(cbn; lia) ltac:(cbn; lia)) as (v & EV & V).
  assert (S := seen_point toy_cube 1 toy_ext 1 toy_lm 1 1 (fun _ _ => 0%R) (fun _ _ _ _ => 0%R) (fun _ _ _ => 1%R) nchan shift fd ltac:(cbn; lia) ltac:(cbn; lia) Hs
    0 0 0 0 0 0 (-1) 0 1 1 1 0 v ltac:(lia) ltac:(lia) ltac:(lia) Hn ltac:(lia) F0 F1 F2 ltac:(cbn; lia) EV e E0 E2).
  cbn [b_lw b_mh toy_cube Z.of_nat Pos.of_succ_nat Pos.succ Z.sub Z.add Z.opp Z.pos_sub Pos.pred_double] in S.
  replace (1 / (-1 - 0))%R with (-1)%R in S by field. replace (1 / (1 - 0))%R with 1%R in S by field.
  cbn [Nat.mul Nat.add] in S. rewrite S, V. cbn [b_lw b_mh toy_cube]. rewrite !axis2. unfold beam_l, beam_m. rewrite cos_0, sin_0.
  rewrite (clamp_at 0 1 _ 0); [|lra|left; split; [lra|reflexivity]]. rewrite (clamp_at 0 1 _ 0); [|lra|left; split; [lra|reflexivity]].
  exact (amp_node toy_cube 0 0 1 0 0 0 ltac:(cbn; lia) ltac:(cbn; lia) ltac:(auto)).
Qed.
Lemma ofR_12 : ofR 1 <> ofR 2.
Proof. unfold ofR. intros [= H]. lra. Qed.
Definition stale : nat -> name -> R := fun _ l => match l with [0; 1] => (-1)%R | [0; 3] => 1%R | _ => 0%R end.
Lemma toy_launch lockstep nchan : 0 < nchan -> nchan <= 1024 -> exists shift, 1 = 2 ^ shift /\
  let A := args_of toy_cube 1 toy_ext 1 toy_lm 1 1 (fun _ _ => 0%R) (fun _ _ _ _ => 0%R) (fun _ _ _ => 1%R) nchan shift in
  exists k1, toy_gpu lockstep nchan = Ok (k1, fun fd => beam_kernel lockstep 32 32 (dim (nchan * 1) 32) (dim 1 32) (dim 1 1) (A fd)) /\
    forall h o n s, runs k1 n (init h o) s -> finished k1 s -> st_out s [0; 0] = 1%R /\ st_out s [1; 0] = 1%R /\ st_out s [2; 0] = 0%R.
Proof.
  intros Hn Hf. destruct (launch lockstep Complex64 toy_cube 1 toy_ext 2 toy_map 1 toy_lm 1 1 (fun _ _ => 0%R) (fun _ _ _ _ => 0%R) (fun _ _ _ => 1%R) nchan (fun _ => 1%R))
    as (shift & Hs & E); try (cbn; lia); [discriminate|].
  exists shift. split; auto. cbv zeta. eexists. split; [exact E|]. intros h o n s R Fi.
  assert (B10 : 2 ^ 10 = 1024) by reflexivity. rewrite B10 in *. set (big := 1024) in *. assert (Hb : big = 1024) by reflexivity. clearbody big.
  assert (L := freq_leaves big (dim nchan big) beam_nud_limit 2 nchan toy_map (fun _ => 1%R) ltac:(lia) ltac:(rewrite limit_128; lia) ltac:(rewrite limit_128; lia)
     (fun c Hc => cover_dim nchan big c ltac:(lia) Hc) h o).
  destruct L as [_ L]. destruct (L n s R) as [_ F]. specialize (F Fi). destruct toy_interp as (k & EI & ->).
  assert (Q : forall c, c < 3 -> st_out s [c; 0] = match c with 0 => 1%R | 1 => 1%R | _ => 0%R end).
  { intros c Hc. rewrite F. unfold freq_out. rewrite (proj2 (Nat.ltb_lt c 3)), (proj2 (Nat.ltb_lt 0 nchan)) by auto. cbn [andb]. rewrite Nat.div_small by lia.
    change (map_seen toy_map h 0) with (fun i => toy_map i). rewrite (interp_ext 2 _ toy_map), EI by (auto; lia). destruct c as [|[|]]; reflexivity. }
  split; [apply (Q 0); lia|]. split; [apply (Q 1); lia|apply (Q 2); lia].
Qed.

(* one channel: only the first extent is loaded *)
Theorem short_row : exists k1 k2 out, toy_gpu true 1 = Ok (k1, k2) /\ toy_cpu 1 = Ok out /\
  exists stale, forall h o n s, runs k1 n (init h o) s -> finished k1 s ->
    forall o' n' s', runs (k2 (st_out s)) n' (init stale o') s' -> finished (k2 (st_out s)) s' -> st_out s' [0] <> out 0 0 0 0 0.
Proof.
  destruct (toy_launch true 1 ltac:(lia) ltac:(lia)) as (shift & Hs & k1 & E & F). destruct (toy_cpu_value 1 ltac:(lia)) as (out & EC & V).
  eexists _, _, out. split; [exact E|]. split; [exact EC|]. exists stale. intros h o n s R Fi o' n' s' R' Fi'. destruct (F h o n s R Fi) as (F0 & F1 & F2).
  match type of R' with runs (beam_kernel _ _ _ _ _ _ ?x) _ _ _ => set (A := x) in * end.
  assert (L := beam_leaves 32 32 (dim (1 * 1) 32) (dim 1 32) (dim 1 1) A stale o' ltac:(lia) ltac:(lia) ltac:(apply dim_pos) ltac:(apply dim_pos) Hs
    ltac:(exists 32; reflexivity) (fun c Hc => cover_dim (1 * 1) 32 c ltac:(lia) Hc) (fun c Hc => cover_dim 1 32 c ltac:(lia) Hc) (dim_1 1)).
  destruct L as [_ L]. destruct (L n' s' R') as [_ G]. rewrite (G Fi'), V.
  change (seen_value A (ext_seen 32 1 A stale 0) (scale_l 1 32 A stale 0) (scale_m 1 32 A stale 0) 0 0 0 0 <> ofR 2).
  assert (X0 : ext_seen 32 1 A stale 0 0 = 0%R) by reflexivity. assert (X1 : ext_seen 32 1 A stale 0 1 = (-1)%R) by reflexivity.
  assert (X2 : ext_seen 32 1 A stale 0 2 = 0%R) by reflexivity. assert (X3 : ext_seen 32 1 A stale 0 3 = 1%R) by reflexivity.
  unfold scale_l, scale_m. rewrite X0, X1, X2, X3. cbn [a_lw a_mh A args_of toy_cube b_lw b_mh].
  replace (IZR (Z.of_nat 2 - 1) / (-1 - 0))%R with (-1)%R by (cbn; field). replace (IZR (Z.of_nat 2 - 1) / (1 - 0))%R with 1%R by (cbn; field).
  unfold A. rewrite toy_wrong; auto. exact ofR_12.
Qed.

(* ---------- a row whose threads do not run in step ---------- *)
Section Race.
  Variables (shift : nat) (fd : name -> R) (o : name -> RC).
  Hypothesis Hs : 1 = 2 ^ shift.
  Let A := args_of toy_cube 1 toy_ext 1 toy_lm 1 1 (fun _ _ => 0%R) (fun _ _ _ _ => 0%R) (fun _ _ _ => 1%R) 4 shift fd.
  Let K := beam_kernel false 32 32 1 1 1 A.
  Definition ahead_pc := set_pc (set_pc (set_pc (set_pc (fun _ _ => (0, 0)) 0 0 (0, 1)) 0 0 (1, 0)) 0 0 (1, 1)) 0 0 (1, 2).
  Lemma ahead_pc_0 : ahead_pc 0 0 = (1, 2). Proof. reflexivity. Qed.
  Lemma ahead_pc_other b t : (b, t) <> (0, 0) -> ahead_pc b t = (0, 0).
  Proof. intros H. unfold ahead_pc. now rewrite !set_pc_other. Qed.
  Lemma first_runs : runs_thread K 0 0. Proof. unfold runs_thread. cbn. repeat split; lia. Qed.
  (* the first thread stores its extent, goes on and computes the scales from what the others have not stored *)
  Lemma ahead : exists s0, runs K 4 (init stale o) s0 /\ st_pc s0 = ahead_pc /\ st_out s0 = o /\
    st_shared s0 0 [0; 0] = 0%R /\ st_shared s0 0 [1; 0] = (-1)%R /\ st_shared s0 0 [1; 1] = 1%R /\
    (forall l, l <> [0; 0] -> l <> [1; 0] -> l <> [1; 1] -> st_shared s0 0 l = stale 0 l) /\ (forall b l, b <> 0 -> st_shared s0 b l = stale b l).
  Proof.
    eexists. split; [|split; [|split]].
    - eapply runs_S; [eapply runs_S; [eapply runs_S; [eapply runs_S; [apply runs_0|]|]|]|].
      + eapply (step_exec K _ 0 0 0 0); [exact first_runs|reflexivity|cbn; lia|reflexivity].
      + eapply (step_barrier K _ 0 0 0); [exact first_runs|reflexivity|cbn; lia|]. intros u _ G. cbn in G. subst u. right. reflexivity.
      + eapply (step_exec K _ 0 0 1 0); [exact first_runs|reflexivity|cbn; lia|reflexivity].
      + eapply (step_exec K _ 0 0 1 1); [exact first_runs|reflexivity|cbn; lia|reflexivity].
    - reflexivity.
    - reflexivity.
    - cbn [st_shared fst perform Nat.eqb init]. split; [|split; [|split; [|split]]].
      + rewrite !write_other by discriminate. rewrite write_same. reflexivity.
      + rewrite !write_other by discriminate. rewrite write_same. rewrite write_other by discriminate. rewrite write_same. cbn. unfold toy_ext, memory. cbn. field.
      + rewrite write_same. rewrite !write_other by discriminate. cbn. field.
      + intros l N0 N1 N2. rewrite !write_other by auto. reflexivity.
      + intros b l N. destruct b; [contradiction|reflexivity].
  Qed.
  Let val := bval 32 32 1 1 A (fun _ => (-1)%R) (fun _ => 1%R) stale.
  Let spec := beam_seen 32 32 1 1 A (fun _ => (-1)%R) (fun _ => 1%R) stale.
  Lemma one_block b t : runs_thread K b t -> b = 0.
  Proof. intros [H _]. cbn in H. lia. Qed.
  Lemma race_end : exists n s, runs K n (init stale o) s /\ finished K s /\ st_out s [0] = match spec [0] with Some w => w | None => o [0] end.
  Proof.
    destruct ahead as (s0 & R0 & P0 & O0 & M0 & M1 & M2 & ML & MB).
    assert (C : consistent K val spec stale s0).
    { apply beam_consistent; try lia; try exact Hs; try (exists 32; reflexivity); [intros c Hc; apply Nat.div_lt_upper_bound; cbn in *; lia|cbn; lia|].
      intros b t R. right. rewrite P0, (one_block b t R), ahead_pc_0. right. cbn. lia. }
    assert (V : covered K spec).
    { apply beam_covered; try lia; try exact Hs; try (exists 32; reflexivity).
      - intros c Hc. apply Nat.div_lt_upper_bound; cbn in *; lia.
      - intros c Hc. apply Nat.div_lt_upper_bound; cbn in *; lia.
      - cbn. lia. }
    assert (NB : forall b t p i, before (p, i) (st_pc s0 b t) -> b = 0 /\ t = 0 /\ before (p, i) (1, 2)).
    { intros b t p i B. rewrite P0 in B. destruct (pair_dec (b, t) (0, 0)) as [[= -> ->]|N]; [auto|].
      rewrite ahead_pc_other in B by auto. unfold before in B. cbn in B. lia. }
    assert (T0 : forall l, untouched K 0 l -> l <> [0; 0] /\ l <> [1; 0] /\ l <> [1; 1]).
    { intros l U. repeat split; intros ->.
      - eapply (U 0 0 0); [exact first_runs|cbn; lia|reflexivity|reflexivity].
      - eapply (U 0 1 0); [exact first_runs|cbn; lia|reflexivity|reflexivity].
      - eapply (U 0 1 1); [exact first_runs|cbn; lia|reflexivity|reflexivity]. }
    assert (I : inv K val spec stale s0 o s0).
    { constructor.
      - intros b t. rewrite P0. destruct (pair_dec (b, t) (0, 0)) as [[= -> ->]|N].
        + rewrite ahead_pc_0. cbn [fst snd]. split; [cbn; lia|]. unfold K. cbn. lia.
        + rewrite ahead_pc_other by auto. cbn [fst snd]. split; [cbn; lia|lia].
      - intros b t p i l f R B N. apply NB in B as (-> & -> & B). unfold before in B. cbn [fst snd] in B.
        destruct p as [|[|p]]; [| |lia].
        + destruct i as [|i]; [|destruct i; discriminate]. injection N as <- _. rewrite M0. reflexivity.
        + destruct i as [|[|i]]; [| |lia]; injection N as <- _; [rewrite M1|rewrite M2]; reflexivity.
      - intros b t p i x f R B N. apply NB in B as (-> & -> & B). unfold before in B. cbn [fst snd] in B.
        destruct p as [|[|p]]; [| |lia].
        + destruct i as [|i]; [discriminate|destruct i; discriminate].
        + destruct i as [|[|i]]; [discriminate|discriminate|lia].
      - intros b t u q R R' Q G. rewrite P0 in Q. destruct (pair_dec (b, t) (0, 0)) as [[= -> ->]|N].
        + rewrite ahead_pc_0 in Q. cbn [fst] in Q. assert (q = 0) as -> by lia. cbn in G. subst u. left. rewrite P0, ahead_pc_0. cbn. lia.
        + rewrite ahead_pc_other in Q by auto. cbn in Q. lia.
      - intros b l U. destruct b as [|b]; [|apply MB; lia]. destruct (T0 l U) as (? & ? & ?). apply ML; auto.
      - intros b t B. unfold before in B. lia.
      - intros x. left. rewrite O0. reflexivity. }
    assert (L := leaves_from K val spec stale s0 ltac:(cbn; lia) C V o I).
    destruct (leaves_ends K spec s0 o L) as (n & s & R & Fi). destruct L as [_ L]. destruct (L n s R) as [_ F].
    exists (n + 4), s. split; [|split; [exact Fi|apply (F Fi)]].
    clear - R R0. induction R as [s|n s s' s'' R IH S]; [exact R0|]. cbn. eapply runs_S; [apply IH; exact R0|exact S].
  Qed.
End Race.
Theorem race : exists k1 k2 out, toy_gpu false 4 = Ok (k1, k2) /\ toy_cpu 4 = Ok out /\
  exists stale, forall h o n s, runs k1 n (init h o) s -> finished k1 s ->
    forall o', exists n' s', runs (k2 (st_out s)) n' (init stale o') s' /\ finished (k2 (st_out s)) s' /\ st_out s' [0] <> out 0 0 0 0 0.
Proof.
  destruct (toy_launch false 4 ltac:(lia) ltac:(lia)) as (shift & Hs & k1 & E & F). destruct (toy_cpu_value 4 ltac:(lia)) as (out & EC & V).
  eexists _, _, out. split; [exact E|]. split; [exact EC|]. exists stale. intros h o n s R Fi o'. destruct (F h o n s R Fi) as (F0 & F1 & F2).
  destruct (race_end shift (st_out s) o' Hs) as (n' & s' & R' & Fi' & O). exists n', s'. split; [exact R'|]. split; [exact Fi'|].
  rewrite O, V. match goal with |- context [beam_seen 32 32 1 1 ?x] => set (A := x) end.
  change (seen_value A (ext_seen 32 1 A stale 0) (-1) 1 0 0 0 0 <> ofR 2). unfold A. rewrite toy_wrong; auto; try lia. exact ofR_12.
Qed.
Theorem beam_raises lockstep bt b ncorr ext nmap g nsrc lm ntime na pa pe asc nchan fr :
  let r := cuda_beam_cube_dde lockstep bt b ncorr ext nmap g nsrc lm ntime na pa pe asc nchan fr in
  (128 <= b_nud b \/ b_lw b < 2 \/ b_mh b < 2 \/ b_nud b < 2 -> r = Raise ValueError) /\
  (b_nud b < 128 -> 2 <= b_lw b -> 2 <= b_mh b -> 2 <= b_nud b ->
     (bt = NotComplex -> r = Raise TypeError) /\
     (bt <> NotComplex -> ncorr <> 1 -> ncorr <> 2 -> ncorr <> 4 -> r = Raise ValueError)).
Proof.
  cbv zeta. unfold cuda_beam_cube_dde, generate_main. rewrite limit_128. split.
  - intros H. destruct (Nat.leb_spec 128 (b_nud b)); [reflexivity|].
    destruct (Nat.ltb_spec (b_lw b) 2); [reflexivity|]. destruct (Nat.ltb_spec (b_mh b) 2); [reflexivity|]. destruct (Nat.ltb_spec (b_nud b) 2); [reflexivity|]. lia.
  - intros H Hl Hm Hn. rewrite (proj2 (Nat.leb_gt _ _)) by lia. rewrite !(proj2 (Nat.ltb_ge _ _)) by lia. cbn [orb]. split.
    + intros ->. reflexivity.
    + intros HT N1 N2 N4. assert (S : corr_shifter ncorr = None) by (destruct ncorr as [|[|[|[|[|]]]]]; try reflexivity; lia).
      rewrite S. destruct bt; [reflexivity|reflexivity|contradiction].
Qed.
