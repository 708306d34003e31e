(* models by chunks, adjointness, and an exact library *)
From Coq Require Import Reals Lra FunctionalExtensionality.
From Verif Require Import Prelude PreludeFacts CRing CplxR LoopFacts DftModel DftProofs WgridModel WgridSpec WgridProofs.
Close Scope R_scope.
Open Scope nat_scope.

Lemma last_in (P : nat -> bool) n : (forall b, b < n -> P b = false) \/ exists b, b < n /\ P b = true /\ forall b', b < b' < n -> P b' = false.
Proof.
  induction n as [|n [IH|(b & Hb & Pb & L)]].
  - left. intros; lia.
  - destruct (P n) eqn:E; [right; exists n; repeat split; auto; intros; lia|left; intros b Hb; destruct (Nat.eq_dec b n) as [->|]; auto; apply IH; lia].
  - destruct (P n) eqn:E; [right; exists n; repeat split; auto; intros; lia|right; exists b; repeat split; auto; intros b' Hb'; destruct (Nat.eq_dec b' n) as [->|]; auto; apply L; lia].
Qed.
Lemma aligned_chan bands : forall b0 q0 chans idx counts c, aligned b0 bands q0 chans idx counts -> q0 <= c < q0 + list_sum chans ->
  exists b1 nb q1 nc, chan_block b0 bands q0 chans c = Ok ((b1, nb), (q1, nc)) /\ b0 <= b1 /\ b1 + nb <= b0 + list_sum bands /\ q1 <= c < q1 + nc /\ q1 + nc <= q0 + list_sum chans /\
    (exists i, b1 <= i < b1 + nb /\ idx i = q1) /\ (forall i, b1 <= i < b1 + nb -> q1 <= idx i /\ idx i + counts i <= q1 + nc) /\
    forall i, b0 <= i < b0 + list_sum bands -> idx i <= c < idx i + counts i -> b1 <= i < b1 + nb.
Proof.
  induction bands as [|nb bands IH]; intros b0 q0 chans idx counts c H Hc.
  - destruct chans; [cbn in Hc; lia|contradiction].
  - destruct chans as [|nc chans]; [contradiction|]. destruct H as (H1 & H2 & H3 & H4). cbn [chan_block].
    change (list_sum (nb :: bands)) with (nb + list_sum bands) in *. change (list_sum (nc :: chans)) with (nc + list_sum chans) in *.
    destruct (Nat.ltb_spec c (q0 + nc)).
    + exists b0, nb, q0, nc. repeat split; try lia; try apply H3; auto. destruct (Nat.lt_ge_cases i (b0 + nb)); [lia|]. pose proof (aligned_all _ _ _ _ _ _ H4 i ltac:(lia)). lia.
    + destruct (IH (b0 + nb) (q0 + nc) chans idx counts c H4 ltac:(lia)) as (b1 & nb1 & q1 & nc1 & E & B1 & B2 & B3 & B4 & B5 & B6 & B7).
      exists b1, nb1, q1, nc1. repeat split; auto; try lia; try apply B6; auto.
      * destruct (Nat.lt_ge_cases i (b0 + nb)); [specialize (H3 i ltac:(lia)); lia|]. apply (B7 i); lia.
      * destruct (Nat.lt_ge_cases i (b0 + nb)); [specialize (H3 i ltac:(lia)); lia|]. apply (B7 i); lia.
Qed.
Lemma locate_end chunks : forall start i, start <= i < start + list_sum chunks -> forall s n, locate start chunks i = (s, n) -> s + n <= start + list_sum chunks.
Proof.
  induction chunks as [|k rest IH]; cbn [locate]; intros start i H s n E; [cbn in H; lia|].
  change (list_sum (k :: rest)) with (k + list_sum rest) in *. destruct (Nat.ltb_spec i (start + k)); [injection E as <- <-; lia|].
  specialize (IH (start + k) i ltac:(lia) s n E). lia.
Qed.
Lemma chunked_model cpus G rows chans bands later_x later_y uvw freq idx counts nx ny cell weights flag celly eps nthr ws image v : aligned 0 bands 0 chans idx counts -> row_by_row G ->
  model_internal G (options cpus cell celly eps nthr ws) (list_sum rows) (list_sum chans) uvw freq (list_sum bands) nx ny image (list_sum bands) idx (list_sum bands) counts weights flag = Ok v ->
  forall r c, r < list_sum rows -> c < list_sum chans ->
  dask_model cpus G rows chans bands (nx :: later_x) (ny :: later_y) uvw freq image idx counts cell weights flag celly eps nthr ws r c = Ok (v r c).
Proof.
  intros Ha Hrow Ei r c Hr Hc. unfold dask_model.
  destruct (aligned_chan bands 0 0 chans idx counts c Ha ltac:(lia)) as (b1 & nb & q1 & nc & E & _ & B2 & B3 & B4 & B5 & B6 & B7).
  unfold chan_blocks. rewrite (aligned_length _ _ _ _ _ _ Ha), Nat.eqb_refl, E. cbn [bind]. destruct (locate 0 rows r) as [r0 nr] eqn:Lr.
  destruct (locate_spec rows 0 r ltac:(lia) r0 nr Lr) as (Br & _). pose proof (locate_end rows 0 r ltac:(lia) r0 nr Lr) as Er. cbn [Nat.add] in Er, B2.
  set (o := options cpus cell celly eps nthr ws) in *.
  assert (Hne : bands <> []). { destruct B5 as (i & Hi & _). intros ->. cbn in B2. lia. }
  destruct (model_run G o (list_sum rows) (list_sum chans) uvw freq (list_sum bands) idx (list_sum bands) counts 0 weights flag nx ny (aligned_whole _ _ _ _ Hne Ha) (le_n _) (list_sum bands) image (le_n _)) as (v1 & E1 & Z1 & V1).
  rewrite Ei in E1. injection E1 as <-.
  destruct (model_run G o nr nc (down r0 uvw) (cut1 q1 freq) nb (cut1 b1 idx) nb (cut1 b1 counts) q1 (cut_opt q1 (down_opt r0 weights)) (cut_opt q1 (down_opt r0 flag)) nx ny
    (block_bins idx counts b1 nb q1 nc B5 B6) (le_n _) nb (window b1 0 0 image) (le_n _)) as (v2 & E2 & Z2 & V2).
  rewrite E2. cbn [bind]. f_equal.
  destruct (last_in (fun b => (idx b <=? c) && (c <? idx b + counts b)) (list_sum bands)) as [No|(b & Hb & Pb & Last)].
  - rewrite Z1. 2: { intros b Hb Hin. specialize (No b Hb). apply Bool.andb_false_iff in No as [No|No]; [apply Nat.leb_gt in No|apply Nat.ltb_ge in No]; lia. }
    apply Z2. intros b Hb Hin. unfold cut1 in Hin. destruct (B6 (b1 + b) ltac:(lia)) as (B8 & _). specialize (No (b1 + b) ltac:(lia)). apply Bool.andb_false_iff in No as [No|No]; [apply Nat.leb_gt in No|apply Nat.ltb_ge in No]; lia.
  - apply Bool.andb_true_iff in Pb as (P1 & P2). apply Nat.leb_le in P1. apply Nat.ltb_lt in P2. pose proof (B7 b ltac:(lia) ltac:(lia)) as Hbb. destruct (B6 b Hbb) as (B8 & B9).
    rewrite (V1 r c b Hb ltac:(lia)). 2: { intros b' Hb' Hin. specialize (Last b' Hb'). apply Bool.andb_false_iff in Last as [No|No]; [apply Nat.leb_gt in No|apply Nat.ltb_ge in No]; lia. }
    rewrite (V2 (r - r0) (c - q1) (b - b1) ltac:(lia)).
    + unfold degridded. assert (Ci : cut1 b1 idx (b - b1) = idx b) by (unfold cut1; f_equal; lia). assert (Cc : cut1 b1 counts (b - b1) = counts b) by (unfold cut1; f_equal; lia).
      assert (Cw : window b1 0 0 image (b - b1) = image b) by (extensionality x; extensionality y; unfold window; cbn [Nat.add]; f_equal; lia).
      rewrite Ci, Cc, Cw, cut1_cut1, !cut_opt_cut. replace (q1 + (idx b - q1)) with (idx b) by lia. rewrite !down_cut_opt, !Nat.sub_0_r. replace (c - q1 - (idx b - q1)) with (c - idx b) by lia.
      rewrite <- (Hrow o r0 nr (list_sum rows)) by lia. f_equal; lia.
    + unfold cut1. replace (b1 + (b - b1)) with b by lia. lia.
    + intros b' Hb' Hin. unfold cut1 in Hin. destruct (B6 (b1 + b') ltac:(lia)) as (B10 & _). specialize (Last (b1 + b') ltac:(lia)). apply Bool.andb_false_iff in Last as [No|No]; [apply Nat.leb_gt in No|apply Nat.ltb_ge in No]; lia.
Qed.

(* channels counted bin by bin *)
Lemma by_bins nband idx counts nchan (f : nat -> R) : bins_cover nband idx counts nchan -> csum (K := RR) nchan f = csum (K := RR) nband (fun b => csum (K := RR) (counts b) (fun c => f (idx b + c))).
Proof.
  intros (H0 & H1 & H2). subst nchan. assert (X : forall n, n <= nband -> csum (K := RR) (idx n) f = csum (K := RR) n (fun b => csum (K := RR) (counts b) (fun c => f (idx b + c)))).
  { induction n as [|n IH]; intros Hn; [rewrite H0; reflexivity|]. rewrite H1 by lia. rewrite (csum_split RR_laws). cbn [csum]. rewrite IH by lia. reflexivity. }
  now apply X.
Qed.
Lemma cover_bins nband idx counts nchan : 0 < nband -> bins_cover nband idx counts nchan -> bins_in nchan nband idx counts 0 /\ forall b b', b < b' -> b' <= nband -> idx b + counts b <= idx b'.
Proof.
  intros Hn (H0 & H1 & H2).
  assert (M : forall b b', b < b' -> b' <= nband -> idx b + counts b <= idx b').
  { intros b b' H. induction H as [|b' H IH]; intros Hb'; [rewrite H1 by lia; lia|]. rewrite (H1 b') by lia. specialize (IH ltac:(lia)). lia. }
  split; [|exact M]. split; [exists 0; split; [lia|exact H0]|]. intros i Hi. specialize (M i nband ltac:(lia) ltac:(lia)). lia.
Qed.
Lemma csum_swapR n m (f : nat -> nat -> R) : csum (K := RR) n (fun i => csum (K := RR) m (fun j => f i j)) = csum (K := RR) m (fun j => csum (K := RR) n (fun i => f i j)).
Proof. apply (csum_swap RR_laws). Qed.
Lemma adjoint_bands G o d nrow nchan uvw freq nband idx counts weights flag nx ny vt vis image : adjoint_pair G -> 0 < nband -> bins_cover nband idx counts nchan -> 0 < nrow -> 0 < nchan -> vt <> OtherType ->
  exists v img, model_internal G o nrow nchan uvw freq nband nx ny image nband idx nband counts weights flag = Ok v /\
    dirty_internal G o d nrow nchan uvw freq vt vis nband idx nband counts nx ny weights flag = Ok img /\
    vis_dot nrow nchan v vis = csum (K := RR) nband (fun b => image_dot nx ny (image b) (img b)).
Proof.
  intros A Hn Hc H1 H2 Hv. destruct (cover_bins nband idx counts nchan Hn Hc) as (Hb & M).
  destruct (model_run G o nrow nchan uvw freq nband idx nband counts 0 weights flag nx ny Hb (le_n _) nband image (le_n _)) as (v & Ev & _ & V).
  destruct (dirty_run G o d nrow nchan uvw freq nband idx nband counts 0 weights flag nx ny Hb (le_n _) vt vis H1 H2 Hv) as (img & Ei & I).
  exists v, img. split; [exact Ev|]. split; [exact Ei|]. unfold vis_dot.
  rewrite (csum_ext (K := RR) nrow _ (fun r => csum (K := RR) nband (fun b => csum (K := RR) (counts b) (fun c => re (cmul (v r (idx b + c)) (cconj (vis r (idx b + c)))))))) by (intros r _; exact (by_bins nband idx counts nchan (fun c => re (cmul (v r c) (cconj (vis r c)))) Hc)).
  rewrite csum_swapR. apply (csum_ext (K := RR)). intros b Hbb.
  transitivity (vis_dot nrow (counts b) (degridded G o nrow uvw freq idx counts 0 flag nx ny image weights b) (cut (idx b) vis)).
  - unfold vis_dot. apply (csum_ext (K := RR)). intros r Hr. apply (csum_ext (K := RR)). intros c Hcc. rewrite (V r (idx b + c) b Hbb ltac:(lia)).
    + rewrite Nat.sub_0_r. replace (idx b + c - idx b) with c by lia. reflexivity.
    + intros b' Hb' Hin. specialize (M b b' ltac:(lia) ltac:(lia)). lia.
  - unfold degridded. rewrite (A o d). unfold image_dot. apply (csum_ext (K := RR)). intros x Hx. apply (csum_ext (K := RR)). intros y Hy. rewrite I by exact Hbb. unfold gridded. now rewrite Nat.sub_0_r.
Qed.
Lemma hessian_symmetric G o d nrow nchan uvw freq nband idx counts weights flag nx ny low a b : adjoint_pair G -> weights_multiply G -> bins_in nchan nband idx counts low ->
  exists ha hb, hessian_internal G o d nrow nchan uvw freq nband nx ny a nband idx nband counts weights flag = Ok ha /\
    hessian_internal G o d nrow nchan uvw freq nband nx ny b nband idx nband counts weights flag = Ok hb /\
    forall k, k < nband -> image_dot nx ny (a k) (hb k) = image_dot nx ny (ha k) (b k).
Proof.
  intros A W Hb.
  destruct (hessian_run G o d nrow nchan uvw freq nband idx nband counts low weights flag nx ny Hb (le_n _) nband a (le_n _)) as (ha & Ea & Va).
  destruct (hessian_run G o d nrow nchan uvw freq nband idx nband counts low weights flag nx ny Hb (le_n _) nband b (le_n _)) as (hb & Eb & Vb).
  exists ha, hb. split; [exact Ea|]. split; [exact Eb|]. intros k Hk.
  set (lo := idx k - low). set (Rw := fun im => dirty2ms G o nrow (counts k) uvw (cut1 lo freq) nx ny im (cut_opt lo weights) (cut_opt lo flag)).
  set (R0 := fun im => dirty2ms G o nrow (counts k) uvw (cut1 lo freq) nx ny im None (cut_opt lo flag)).
  assert (X : forall im jm, image_dot nx ny im (ms2dirty G o d nrow (counts k) uvw (cut1 lo freq) (R0 jm) (cut_opt lo weights) (cut_opt lo flag) nx ny) =
     csum (K := RR) nrow (fun r => csum (K := RR) (counts k) (fun c => (weight_at (cut_opt lo weights) r c * re (cmul (R0 im r c) (cconj (R0 jm r c))))%R))).
  { intros im jm. rewrite <- (A o d). unfold vis_dot. apply (csum_ext (K := RR)). intros r Hr. apply (csum_ext (K := RR)). intros c Hc. rewrite W by assumption. fold (R0 im).
    destruct (R0 im r c) as [p q], (R0 jm r c) as [s t]. unfold re, ofR. cbn. ring. }
  transitivity (image_dot nx ny (a k) (ms2dirty G o d nrow (counts k) uvw (cut1 lo freq) (R0 (b k)) (cut_opt lo weights) (cut_opt lo flag) nx ny)).
  { unfold image_dot. apply (csum_ext (K := RR)). intros x _. apply (csum_ext (K := RR)). intros y _. rewrite Vb by exact Hk. reflexivity. }
  rewrite X. transitivity (image_dot nx ny (b k) (ms2dirty G o d nrow (counts k) uvw (cut1 lo freq) (R0 (a k)) (cut_opt lo weights) (cut_opt lo flag) nx ny)).
  { rewrite X. apply (csum_ext (K := RR)). intros r _. apply (csum_ext (K := RR)). intros c _. destruct (R0 (a k) r c) as [p q], (R0 (b k) r c) as [s t]. unfold re. cbn. ring. }
  unfold image_dot. apply (csum_ext (K := RR)). intros x _. apply (csum_ext (K := RR)). intros y _. rewrite Va by exact Hk. cbn. unfold regridded, degridded. fold lo. apply Rmult_comm.
Qed.

(* the exact library does what is assumed *)
Lemma exact_reads : reads_inside exact.
Proof. intros o d nrow nchan uvw freq ms ms' w f nx ny x y H _ _. cbn. apply (csum_ext (K := RR)). intros r Hr. apply (csum_ext (K := RR)). intros c Hc. now rewrite H. Qed.
Lemma csum_subR n (f g : nat -> R) : csum (K := RR) n (fun i => (f i - g i)%R) = (csum (K := RR) n f - csum (K := RR) n g)%R.
Proof. induction n as [|n IH]; cbn in *; [ring|rewrite IH; ring]. Qed.
Lemma exact_linear : linear_gridding exact.
Proof.
  intros o d nrow nchan uvw freq ms ms' w f nx ny x y _ _. cbn. rewrite <- csum_subR. apply (csum_ext (K := RR)). intros r Hr. rewrite <- csum_subR. apply (csum_ext (K := RR)). intros c Hc.
  destruct (used f r c); [|refine (_ : @eq R _ _); ring]. refine (_ : @eq R _ _). destruct (ms r c) as [p q], (ms' r c) as [s t], (cis (phase_of o uvw freq nx ny r c x y)) as [u v]. unfold re. cbn. ring.
Qed.
Lemma exact_adds : adds_rows exact.
Proof.
  intros o d n m nchan uvw freq ms w f nx ny x y _ _. cbn. rewrite (csum_split RR_laws). cbn. f_equal. apply (csum_ext (K := RR)). intros r Hr. apply (csum_ext (K := RR)). intros c Hc.
  destruct w, f; reflexivity.
Qed.
Lemma exact_rows : row_by_row exact.
Proof. intros o r0 n nrow nchan uvw freq nx ny image w f r c _ _ _. destruct w, f; reflexivity. Qed.
Lemma exact_weights : weights_multiply exact.
Proof.
  intros o nrow nchan uvw freq nx ny image w f r c _ _. cbn. destruct (used f r c).
  - generalize (csum (K := RC) nx (fun x => csum ny (fun y => cmul (ofR (image x y)) (cis (- phase_of o uvw freq nx ny r c x y))))). intros z. generalize (weight_at w r c). intros a. destruct z as [p q]. unfold ofR. apply injective_projections; cbn; ring.
  - unfold ofR. apply injective_projections; cbn; ring.
Qed.
Lemma re_csum n (f : nat -> RC) : re (csum n f) = csum (K := RR) n (fun i => re (f i)).
Proof. induction n as [|n IH]; [reflexivity|]. cbn [csum]. rewrite <- IH. reflexivity. Qed.
Lemma exact_adjoint : adjoint_pair exact.
Proof.
  intros o d nrow nchan uvw freq image v w f nx ny. unfold vis_dot, image_dot, exact. cbn [dirty2ms ms2dirty].
  transitivity (csum (K := RR) nrow (fun r => csum (K := RR) nchan (fun c => csum (K := RR) nx (fun x => csum (K := RR) ny (fun y =>
     if used f r c then (image x y * (weight_at w r c * re (cmul (v r c) (cis (phase_of o uvw freq nx ny r c x y)))))%R else 0%R))))).
  - apply (csum_ext (K := RR)). intros r Hr. apply (csum_ext (K := RR)). intros c Hc. destruct (used f r c).
    + set (F := fun x y => cmul (ofR (image x y)) (cis (- phase_of o uvw freq nx ny r c x y))).
      transitivity (re (csum nx (fun x => csum ny (fun y => cmul (F x y) (cmul (ofR (weight_at w r c)) (cconj (v r c))))))).
      * f_equal. symmetry. transitivity (cmul (csum nx (fun x => csum ny (fun y => F x y))) (cmul (ofR (weight_at w r c)) (cconj (v r c)))).
        { rewrite <- (csum_mul_r RC_laws). apply csum_ext. intros x _. apply (csum_mul_r RC_laws). }
        change (csum nx (fun x => csum ny (fun y => cmul (ofR (image x y)) (cis (- phase_of o uvw freq nx ny r c x y))))) with (csum nx (fun x => csum ny (fun y => F x y))).
        generalize (csum nx (fun x => csum ny (fun y => F x y))). intros [p q]. destruct (v r c) as [s t]. unfold ofR. apply injective_projections; cbn; ring.
      * rewrite re_csum. apply (csum_ext (K := RR)). intros x _. rewrite re_csum. apply (csum_ext (K := RR)). intros y _. unfold F, cis. rewrite cos_neg, sin_neg. destruct (v r c) as [s t]. unfold re, ofR. cbn. ring.
    + symmetry. rewrite (csum_ext (K := RR) nx _ (fun _ => 0%R)) by (intros x _; apply (csum_0 RR_laws)). rewrite (csum_0 RR_laws). unfold re. cbn. ring.
  - rewrite (csum_ext (K := RR) nrow _ (fun r => csum (K := RR) nx (fun x => csum (K := RR) nchan (fun c => csum (K := RR) ny (fun y =>
     if used f r c then (image x y * (weight_at w r c * re (cmul (v r c) (cis (phase_of o uvw freq nx ny r c x y)))))%R else 0%R))))) by (intros r _; apply csum_swapR).
    rewrite csum_swapR. apply (csum_ext (K := RR)). intros x _.
    rewrite (csum_ext (K := RR) nrow _ (fun r => csum (K := RR) ny (fun y => csum (K := RR) nchan (fun c =>
     if used f r c then (image x y * (weight_at w r c * re (cmul (v r c) (cis (phase_of o uvw freq nx ny r c x y)))))%R else 0%R)))) by (intros r _; apply csum_swapR).
    rewrite csum_swapR. apply (csum_ext (K := RR)). intros y _. symmetry. refine (eq_trans (eq_sym (csum_mul_l RR_laws nrow (image x y) _)) _).
    apply (csum_ext (K := RR)). intros r _. refine (eq_trans (eq_sym (csum_mul_l RR_laws nchan (image x y) _)) _).
    apply (csum_ext (K := RR)). intros c _. destruct (used f r c); refine (_ : @eq R _ _); cbn; ring.
Qed.
Lemma dirty_arguments cpus G nrow nchan uvw freq vt vis nidx idx ncounts counts nx ny cell weights flag celly eps nthr ws d img :
  dirty cpus G nrow nchan uvw freq vt vis nidx idx ncounts counts nx ny cell weights flag celly eps nthr ws d = Ok img ->
  0 < nidx /\ nidx <= ncounts /\ 0 < nrow /\ 0 < nchan /\ vt <> OtherType.
Proof.
  unfold dirty, dirty_internal. destruct nidx as [|k]; [discriminate|]. cbn [lowest bind]. destruct (Nat.eqb_spec nrow 0); [discriminate|]. destruct (Nat.eqb_spec nchan 0); [discriminate|]. cbn [orb].
  intros H. assert (Hv : vt <> OtherType) by (intros ->; discriminate H). repeat split; try lia; auto.
  destruct (Nat.leb_spec (S k) ncounts) as [|L]; [assumption|exfalso]. destruct vt; [| |congruence]; rewrite forM_step in H;
    match type of H with context [forM k ?f ?s] => destruct (forM k f s) end; cbn [bind] in H; try discriminate H;
    unfold bin in H; (destruct (Nat.leb_spec ncounts k); [|lia]); rewrite Bool.orb_true_r in H; discriminate H.
Qed.
