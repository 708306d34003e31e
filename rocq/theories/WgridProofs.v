From Coq Require Import Reals Lra FunctionalExtensionality.
From Verif Require Import Prelude PreludeFacts CRing CplxR LoopFacts DftModel DftProofs WgridModel WgridSpec.
Close Scope R_scope.
Open Scope nat_scope.

Lemma forM_step {S} n (b : nat -> S -> res S) s : forM (Datatypes.S n) b s = (do! x <- forM n b s; b n x).
Proof. reflexivity. Qed.
(* a loop writing one band after another *)
Lemma bands_run n (body : nat -> arr3 R -> res (arr3 R)) (v : nat -> arr2 R) d0 :
  (forall i d, i < n -> body i d = Ok (fun b x y => if Nat.eqb b i then v i x y else d b x y)) ->
  exists d, forM n body d0 = Ok d /\ forall b x y, d b x y = if b <? n then v b x y else d0 b x y.
Proof.
  induction n as [|n IH]; intros H; [exists d0; split; [reflexivity|intros; reflexivity]|].
  destruct IH as (d & E & Hd); [intros; apply H; lia|]. cbn [forM]. rewrite E. cbn [bind]. rewrite H by lia. eexists. split; [reflexivity|].
  intros b x y. cbv beta. rewrite Hd. destruct (Nat.ltb_spec b (S n)), (Nat.ltb_spec b n), (Nat.eqb_spec b n); subst; try lia; reflexivity.
Qed.
Lemma lowest_spec n idx m : (exists i, i < n /\ idx i = m) -> (forall i, i < n -> m <= idx i) -> lowest n idx = Ok m.
Proof.
  intros (i & Hi & E) H. destruct n as [|n]; [lia|]. cbn [lowest]. f_equal.
  assert (X : forall k, k <= n -> (forall i, i <= k -> for_ k (fun i m => Nat.min m (idx (S i))) (idx 0) <= idx i) /\ exists i, i <= k /\ for_ k (fun i m => Nat.min m (idx (S i))) (idx 0) = idx i).
  { induction k as [|k IH]; intros Hk.
    - split; [intros j Hj; replace j with 0 by lia; cbn; lia|exists 0; split; [lia|reflexivity]].
    - destruct IH as (IH1 & j & Hj & Ej); [lia|]. rewrite for_S. split.
      + intros q Hq. destruct (Nat.eq_dec q (S k)) as [->|]; [lia|]. specialize (IH1 q). lia.
      + destruct (Nat.le_ge_cases (for_ k (fun i m => Nat.min m (idx (S i))) (idx 0)) (idx (S k))); [exists j|exists (S k)]; (split; [lia|]); [rewrite Nat.min_l by assumption; exact Ej|rewrite Nat.min_r by assumption; reflexivity]. }
  destruct (X n ltac:(lia)) as (X1 & j & Hj & Ej). specialize (X1 i ltac:(lia)). specialize (H j ltac:(lia)). lia.
Qed.
Lemma bin_spec nchan nidx idx ncounts counts low i : i < nidx -> i < ncounts -> low <= idx i -> idx i - low + counts i <= nchan ->
  bin nchan nidx idx ncounts counts low i = Ok (idx i - low, counts i).
Proof.
  intros H1 H2 H3 H4. unfold bin. destruct (Nat.leb_spec nidx i); [lia|]. destruct (Nat.leb_spec ncounts i); [lia|]. cbn [orb]. cbv zeta. rewrite (Nat.min_l (idx i - low) nchan) by lia. rewrite (Nat.min_l (idx i - low + counts i) nchan) by lia. do 2 f_equal. lia.
Qed.

Section Images.
  Variables (G : ducc) (o : opts) (d : bool) (nrow nchan : nat) (uvw : arr2 R) (freq : arr R) (nidx : nat) (idx : arr nat) (ncounts : nat) (counts : arr nat) (low : nat).
  Variables (weights : option (arr2 R)) (flag : option (arr2 bool)) (nx ny : nat).
  Hypothesis Hb : bins_in nchan nidx idx counts low.
  Hypothesis Hc : nidx <= ncounts.
  Lemma low_ok : lowest nidx idx = Ok low.
  Proof. destruct Hb as (H1 & H2). apply lowest_spec; auto. intros i Hi. apply H2. exact Hi. Qed.
  Lemma bin_ok i : i < nidx -> bin nchan nidx idx ncounts counts low i = Ok (idx i - low, counts i).
  Proof. intros Hi. destruct Hb as (_ & H2). specialize (H2 i Hi). apply bin_spec; lia. Qed.
  Definition gridded (vis : arr2 RC) (b : nat) : arr2 R :=
    ms2dirty G o d nrow (counts b) uvw (cut1 (idx b - low) freq) (cut (idx b - low) vis) (cut_opt (idx b - low) weights) (cut_opt (idx b - low) flag) nx ny.
  Definition degridded (image : arr3 R) (w : option (arr2 R)) (b : nat) : arr2 RC :=
    dirty2ms G o nrow (counts b) uvw (cut1 (idx b - low) freq) nx ny (image b) (cut_opt (idx b - low) w) (cut_opt (idx b - low) flag).
  Definition regridded (vis : arr2 RC) (b : nat) : arr2 R :=
    ms2dirty G o d nrow (counts b) uvw (cut1 (idx b - low) freq) vis (cut_opt (idx b - low) weights) (cut_opt (idx b - low) flag) nx ny.
  Lemma dirty_run vt vis : 0 < nrow -> 0 < nchan -> vt <> OtherType ->
    exists img, dirty_internal G o d nrow nchan uvw freq vt vis nidx idx ncounts counts nx ny weights flag = Ok img /\ forall b x y, b < nidx -> img b x y = gridded vis b x y.
  Proof.
    intros H1 H2 Hv. unfold dirty_internal. rewrite low_ok. cbn [bind]. destruct (Nat.eqb_spec nrow 0); [lia|]. destruct (Nat.eqb_spec nchan 0); [lia|]. cbn [orb].
    destruct (bands_run nidx (fun i (dirty : arr3 R) => do! (lo, n) <- bin nchan nidx idx ncounts counts low i;
        let img := ms2dirty G o d nrow n uvw (cut1 lo freq) (cut lo vis) (cut_opt lo weights) (cut_opt lo flag) nx ny in
        Ok (fun b x y => if Nat.eqb b i then img x y else dirty b x y)) (gridded vis) (fun _ _ _ => 0%R)) as (img & E & Hi).
    { intros i dd Hi. rewrite bin_ok by assumption. reflexivity. }
    exists img. split; [destruct vt; [exact E|exact E|congruence]|]. intros b x y Hbb. rewrite Hi. destruct (Nat.ltb_spec b nidx); [reflexivity|lia].
  Qed.
  Lemma hessian_run nband image : nidx <= nband ->
    exists img, hessian_internal G o d nrow nchan uvw freq nband nx ny image nidx idx ncounts counts weights flag = Ok img /\ forall b x y, b < nidx -> img b x y = regridded (degridded image None b) b x y.
  Proof.
    intros H1. unfold hessian_internal. rewrite low_ok. cbn [bind].
    destruct (bands_run nidx (fun i (convolved : arr3 R) => do! (lo, n) <- bin nchan nidx idx ncounts counts low i;
        if Nat.leb nband i then Raise IndexError else
        let modelvis := dirty2ms G o nrow n uvw (cut1 lo freq) nx ny (image i) None (cut_opt lo flag) in
        let img := ms2dirty G o d nrow n uvw (cut1 lo freq) modelvis (cut_opt lo weights) (cut_opt lo flag) nx ny in
        Ok (fun b x y => if Nat.eqb b i then img x y else convolved b x y)) (fun b => regridded (degridded image None b) b) (fun _ _ _ => 0%R)) as (img & E & Hi).
    { intros i dd Hi. rewrite bin_ok by assumption. cbn [bind]. destruct (Nat.leb_spec nband i); [lia|]. reflexivity. }
    exists img. split; [exact E|]. intros b x y Hbb. rewrite Hi. destruct (Nat.ltb_spec b nidx); [reflexivity|lia].
  Qed.
  Lemma residual_run nband image vis : nidx <= nband ->
    exists img, residual_internal G o d nrow nchan uvw freq nband nx ny image vis nidx idx ncounts counts weights flag = Ok img /\
      forall b x y, b < nidx -> img b x y = regridded (fun r c => csub (cut (idx b - low) vis r c) (degridded image None b r c)) b x y.
  Proof.
    intros H1. unfold residual_internal. rewrite low_ok. cbn [bind].
    destruct (bands_run nidx (fun i (residim : arr3 R) => do! (lo, n) <- bin nchan nidx idx ncounts counts low i;
        if Nat.leb nband i then Raise IndexError else
        let tvis := cut lo vis in
        let modelvis := dirty2ms G o nrow n uvw (cut1 lo freq) nx ny (image i) None (cut_opt lo flag) in
        let residvis : arr2 RC := fun r c => csub (tvis r c) (modelvis r c) in
        let img := ms2dirty G o d nrow n uvw (cut1 lo freq) residvis (cut_opt lo weights) (cut_opt lo flag) nx ny in
        Ok (fun b x y => if Nat.eqb b i then img x y else residim b x y)) (fun b => regridded (fun r c => csub (cut (idx b - low) vis r c) (degridded image None b r c)) b) (fun _ _ _ => 0%R)) as (img & E & Hi).
    { intros i dd Hi. rewrite bin_ok by assumption. cbn [bind]. destruct (Nat.leb_spec nband i); [lia|]. reflexivity. }
    exists img. split; [exact E|]. intros b x y Hbb. rewrite Hi. destruct (Nat.ltb_spec b nidx); [reflexivity|lia].
  Qed.
  (* the last band containing a channel decides *)
  Lemma model_run nband image : nband <= nidx ->
    exists v, model_internal G o nrow nchan uvw freq nband nx ny image nidx idx ncounts counts weights flag = Ok v /\
      (forall r c, (forall b, b < nband -> ~ idx b - low <= c < idx b - low + counts b) -> v r c = c0) /\
      (forall r c b, b < nband -> idx b - low <= c < idx b - low + counts b -> (forall b', b < b' < nband -> ~ idx b' - low <= c < idx b' - low + counts b') ->
         v r c = degridded image weights b r (c - (idx b - low))).
  Proof.
    intros H1. unfold model_internal. rewrite low_ok. cbn [bind].
    assert (X : forall k, k <= nband -> exists v, forM k (fun i (vis : arr2 RC) => do! (lo, n) <- bin nchan nidx idx ncounts counts low i;
        let v := dirty2ms G o nrow n uvw (cut1 lo freq) nx ny (image i) (cut_opt lo weights) (cut_opt lo flag) in
        Ok (fun r c => if Nat.leb lo c && Nat.ltb c (lo + n) then v r (c - lo) else vis r c)) (fun _ _ => c0) = Ok v /\
      (forall r c, (forall b, b < k -> ~ idx b - low <= c < idx b - low + counts b) -> v r c = c0) /\
      (forall r c b, b < k -> idx b - low <= c < idx b - low + counts b -> (forall b', b < b' < k -> ~ idx b' - low <= c < idx b' - low + counts b') ->
         v r c = degridded image weights b r (c - (idx b - low)))).
    { induction k as [|k IH]; intros Hk.
      - eexists. split; [reflexivity|]. split; [reflexivity|intros; lia].
      - destruct IH as (v & E & Z & V); [lia|]. rewrite forM_step, E. cbn [bind]. rewrite bin_ok by lia. cbn [bind]. eexists. split; [reflexivity|]. cbv beta zeta. split.
        + intros r c H. destruct (Nat.leb_spec (idx k - low) c); destruct (Nat.ltb_spec c (idx k - low + counts k)); cbn [andb]; try (apply Z; intros; apply H; lia).
          exfalso. apply (H k); lia.
        + intros r c b Hbk Hin Hlast. destruct (Nat.eq_dec b k) as [->|].
          * destruct (Nat.leb_spec (idx k - low) c); [|lia]. destruct (Nat.ltb_spec c (idx k - low + counts k)); [|lia]. reflexivity.
          * destruct (Nat.leb_spec (idx k - low) c); destruct (Nat.ltb_spec c (idx k - low + counts k)); cbn [andb]; try (apply V; auto; try lia; intros; apply Hlast; lia).
            exfalso. apply (Hlast k); lia. }
    exact (X nband ltac:(lia)).
  Qed.
End Images.

(* the residual is the difference *)
Lemma residual_split G o d nrow nchan uvw freq nidx idx ncounts counts low weights flag nx ny vt vis nband image : linear_gridding G -> bins_in nchan nidx idx counts low -> nidx <= ncounts -> nidx <= nband -> 0 < nrow -> 0 < nchan -> vt <> OtherType ->
  exists dirty hessian resid, dirty_internal G o d nrow nchan uvw freq vt vis nidx idx ncounts counts nx ny weights flag = Ok dirty /\
    hessian_internal G o d nrow nchan uvw freq nband nx ny image nidx idx ncounts counts weights flag = Ok hessian /\
    residual_internal G o d nrow nchan uvw freq nband nx ny image vis nidx idx ncounts counts weights flag = Ok resid /\
    forall b x y, b < nidx -> x < nx -> y < ny -> resid b x y = (dirty b x y - hessian b x y)%R.
Proof.
  intros L Hb Hc Hn H1 H2 Hv.
  destruct (dirty_run G o d nrow nchan uvw freq nidx idx ncounts counts low weights flag nx ny Hb Hc vt vis H1 H2 Hv) as (dd & Ed & Vd).
  destruct (hessian_run G o d nrow nchan uvw freq nidx idx ncounts counts low weights flag nx ny Hb Hc nband image Hn) as (hh & Eh & Vh).
  destruct (residual_run G o d nrow nchan uvw freq nidx idx ncounts counts low weights flag nx ny Hb Hc nband image vis Hn) as (rr & Er & Vr).
  exists dd, hh, rr. repeat (split; [assumption|]). intros b x y Hbb Hx Hy. rewrite Vd, Vh, Vr by assumption. unfold regridded, gridded. now rewrite L by assumption.
Qed.

(* views of views *)
Lemma cut_cut {A} p q (x : arr2 A) : cut p (cut q x) = cut (q + p) x.
Proof. unfold cut. extensionality r. extensionality c. f_equal. lia. Qed.
Lemma cut1_cut1 {A} p q (x : arr A) : cut1 p (cut1 q x) = cut1 (q + p) x.
Proof. unfold cut1. extensionality c. f_equal. lia. Qed.
Lemma cut_opt_cut {A} p q (x : option (arr2 A)) : cut_opt p (cut_opt q x) = cut_opt (q + p) x.
Proof. destruct x; cbn; [now rewrite cut_cut|reflexivity]. Qed.
Lemma down_cut {A} p q (x : arr2 A) : cut p (down q x) = down q (cut p x).
Proof. reflexivity. Qed.
Lemma down_cut_opt {A} p q (x : option (arr2 A)) : cut_opt p (down_opt q x) = down_opt q (cut_opt p x).
Proof. now destruct x. Qed.
Lemma down_down {A} p q (x : arr2 A) : down p (down q x) = down (q + p) x.
Proof. unfold down. extensionality r. extensionality c. f_equal. lia. Qed.
Lemma down_opt_down {A} p q (x : option (arr2 A)) : down_opt p (down_opt q x) = down_opt (q + p) x.
Proof. destruct x; cbn; [now rewrite down_down|reflexivity]. Qed.

(* blocks of rows add up *)
Lemma rows_total (f : nat -> nat -> res R) (F : nat -> nat -> R) rows : (forall r0 n, 0 < n -> f r0 n = Ok (F r0 n)) -> (forall r0 n m, F r0 (n + m) = (F r0 n + F (r0 + n)%nat m)%R) ->
  Forall (fun n => 0 < n) rows -> forall r0, sum_blocks f r0 rows = Ok (F r0 (list_sum rows)).
Proof.
  intros H1 H2. induction rows as [|n rest IH]; intros Hp r0.
  - cbn. specialize (H2 r0 0 0). rewrite !Nat.add_0_r in H2. f_equal. cbn [list_sum fold_right]. lra.
  - inversion Hp as [|? ? Hn Hr]; subst. cbn [sum_blocks]. rewrite H1 by exact Hn. cbn [bind]. rewrite IH by exact Hr. cbn [bind]. change (list_sum (n :: rest)) with (n + list_sum rest). now rewrite H2.
Qed.
Lemma aligned_block bands : forall b0 q0 chans idx counts b, aligned b0 bands q0 chans idx counts -> b0 <= b < b0 + list_sum bands ->
  exists b1 nb q1 nc, band_block b0 bands q0 chans b = Ok ((b1, nb), (q1, nc)) /\ b0 <= b1 /\ b1 <= b < b1 + nb /\ b1 + nb <= b0 + list_sum bands /\ 0 < nc /\ q0 <= q1 /\ q1 + nc <= q0 + list_sum chans /\
    (exists i, b1 <= i < b1 + nb /\ idx i = q1) /\ forall i, b1 <= i < b1 + nb -> q1 <= idx i /\ idx i + counts i <= q1 + nc.
Proof.
  induction bands as [|nb bands IH]; intros b0 q0 chans idx counts b H Hb; [cbn in Hb; lia|].
  destruct chans as [|nc chans]; [contradiction|]. destruct H as (H1 & H2 & H3 & H4). cbn [band_block].
  change (list_sum (nb :: bands)) with (nb + list_sum bands) in *. change (list_sum (nc :: chans)) with (nc + list_sum chans).
  destruct (Nat.ltb_spec b (b0 + nb)).
  - exists b0, nb, q0, nc. repeat split; try lia; try apply H3; auto.
  - destruct (IH (b0 + nb) (q0 + nc) chans idx counts b H4 ltac:(lia)) as (b1 & nb1 & q1 & nc1 & E & B1 & B2 & B3 & B4 & B5 & B6 & B7 & B8).
    exists b1, nb1, q1, nc1. repeat split; auto; try lia; try apply B8; auto.
Qed.
Lemma aligned_length bands : forall b0 q0 chans idx counts, aligned b0 bands q0 chans idx counts -> List.length bands = List.length chans.
Proof. induction bands as [|nb bands IH]; intros b0 q0 [|nc chans] idx counts H; cbn in *; try contradiction; [reflexivity|]. f_equal. eapply IH. apply H. Qed.
Lemma aligned_all bands : forall b0 q0 chans idx counts, aligned b0 bands q0 chans idx counts -> forall b, b0 <= b < b0 + list_sum bands -> q0 <= idx b /\ idx b + counts b <= q0 + list_sum chans.
Proof.
  intros b0 q0 chans idx counts H b Hb. destruct (aligned_block _ _ _ _ _ _ b H Hb) as (b1 & nb & q1 & nc & _ & _ & B2 & _ & _ & B5 & B6 & _ & B8). specialize (B8 b B2). lia.
Qed.
Lemma aligned_whole bands chans idx counts : bands <> [] -> aligned 0 bands 0 chans idx counts -> bins_in (list_sum chans) (list_sum bands) idx counts 0.
Proof.
  intros Hne H. split.
  - destruct bands as [|nb bands]; [congruence|]. destruct chans as [|nc chans]; [contradiction|]. destruct H as (_ & (b & Hb & E) & _). exists b. change (list_sum (nb :: bands)) with (nb + list_sum bands). split; [lia|exact E].
  - intros i Hi. pose proof (aligned_all _ _ _ _ _ _ H i ltac:(lia)). lia.
Qed.
Lemma chans_positive bands : forall b0 q0 chans idx counts, bands <> [] -> aligned b0 bands q0 chans idx counts -> 0 < list_sum chans.
Proof. intros b0 q0 [|nc chans] idx counts Hne H; destruct bands as [|nb bands]; try congruence; try contradiction. destruct H as (H & _). cbn. lia. Qed.
(* bins of a block *)
Lemma block_bins idx counts b1 nb q1 nc : (exists i, b1 <= i < b1 + nb /\ idx i = q1) -> (forall i, b1 <= i < b1 + nb -> q1 <= idx i /\ idx i + counts i <= q1 + nc) ->
  bins_in nc nb (cut1 b1 idx) (cut1 b1 counts) q1.
Proof.
  intros (i & Hi & E) H. split.
  - exists (i - b1). split; [lia|]. unfold cut1. now replace (b1 + (i - b1)) with i by lia.
  - intros j Hj. unfold cut1. apply H. lia.
Qed.

Section Chunks.
  Variables (cpus : nat) (G : ducc) (rows chans bands : list nat) (uvw : arr2 R) (freq : arr R) (idx counts : arr nat) (nx ny : nat) (cell : R)
    (weights : option (arr2 R)) (flag : option (arr2 bool)) (celly : option R) (eps : R) (nthr : nat) (ws d : bool).
  Hypothesis Ha : aligned 0 bands 0 chans idx counts.
  Hypothesis Hr : Forall (fun n => 0 < n) rows.
  Hypothesis Hadd : adds_rows G.
  Notation o := (options cpus cell celly eps nthr ws).
  Lemma nonempty b : b < list_sum bands -> bands <> [].
  Proof. intros H ->. cbn in H. lia. Qed.
  Lemma chunked_dirty vt vis img : vt <> OtherType -> dirty cpus G (list_sum rows) (list_sum chans) uvw freq vt vis (list_sum bands) idx (list_sum bands) counts nx ny cell weights flag celly eps nthr ws d = Ok img ->
    forall b x y, b < list_sum bands -> x < nx -> y < ny ->
    dask_dirty cpus G rows chans bands uvw freq vt vis idx counts nx ny cell weights flag celly eps nthr ws d b x y = Ok (img b x y).
  Proof.
    intros Hv Ei b x y Hb Hx Hy. unfold dask_dirty. destruct (aligned_block bands 0 0 chans idx counts b Ha ltac:(lia)) as (b1 & nb & q1 & nc & E & _ & B2 & _ & B4 & _ & _ & B7 & B8).
    unfold band_blocks. rewrite (aligned_length _ _ _ _ _ _ Ha), Nat.eqb_refl, E. cbn [bind].
    pose proof (block_bins idx counts b1 nb q1 nc B7 B8) as Hbins.
    set (F := fun r0 n => ms2dirty G o d n (counts b) (down r0 uvw) (cut1 (idx b) freq) (down r0 (cut (idx b) vis)) (down_opt r0 (cut_opt (idx b) weights)) (down_opt r0 (cut_opt (idx b) flag)) nx ny x y).
    assert (S : sum_blocks (fun r0 nr => do! img <- dirty_internal G o d nr nc (down r0 uvw) (cut1 q1 freq) vt (cut q1 (down r0 vis)) nb (cut1 b1 idx) nb (cut1 b1 counts) nx ny (cut_opt q1 (down_opt r0 weights)) (cut_opt q1 (down_opt r0 flag));
        Ok (img (b - b1) x y)) 0 rows = Ok (F 0 (list_sum rows))).
    { apply rows_total; [|intros; unfold F; rewrite Hadd by assumption; now rewrite !down_down, !down_opt_down|exact Hr].
      intros r0 n Hn. destruct (dirty_run G o d n nc (down r0 uvw) (cut1 q1 freq) nb (cut1 b1 idx) nb (cut1 b1 counts) q1 (cut_opt q1 (down_opt r0 weights)) (cut_opt q1 (down_opt r0 flag)) nx ny Hbins (le_n _) vt (cut q1 (down r0 vis)) Hn B4 Hv) as (im & E1 & V1).
      rewrite E1. cbn [bind]. f_equal. rewrite V1 by lia. unfold gridded, F. destruct (B8 b B2) as (B9 & _). change (cut1 b1 counts (b - b1)) with (counts (b1 + (b - b1))). change (cut1 b1 idx (b - b1)) with (idx (b1 + (b - b1))). replace (b1 + (b - b1)) with b by lia.
      rewrite cut1_cut1, cut_cut, !cut_opt_cut. replace (q1 + (idx b - q1)) with (idx b) by lia. now rewrite down_cut, !down_cut_opt. }
    assert (N : 0 < list_sum rows). { unfold dirty, dirty_internal in Ei. destruct (lowest (list_sum bands) idx); [|discriminate]. cbn [bind] in Ei. destruct (Nat.eqb_spec (list_sum rows) 0); [discriminate|]. lia. }
    unfold dirty in Ei. destruct (dirty_run G o d (list_sum rows) (list_sum chans) uvw freq (list_sum bands) idx (list_sum bands) counts 0 weights flag nx ny (aligned_whole _ _ _ _ (nonempty b Hb) Ha) (le_n _) vt vis N (chans_positive _ _ _ _ _ _ (nonempty b Hb) Ha) Hv) as (im & E1 & V1).
    rewrite Ei in E1. injection E1 as <-. rewrite V1 by exact Hb. unfold gridded. rewrite Nat.sub_0_r. destruct vt; [| |congruence]; rewrite S; unfold F; do 2 f_equal; destruct weights, flag; reflexivity.
  Qed.
  (* one chunk of the image *)
  Lemma locate_one n i : i < n -> locate 0 [n] i = (0, n).
  Proof. intros H. cbn [locate]. destruct (Nat.ltb_spec i (0 + n)); [reflexivity|lia]. Qed.
  Hypothesis Hin : reads_inside G.
  Hypothesis Hrow : row_by_row G.
  Lemma down_0 {A} (x : option (arr2 A)) : down_opt 0 x = x.
  Proof. now destruct x. Qed.
  Definition mvis (k lo r0 n : nat) (image : arr2 R) : arr2 RC :=
    dirty2ms G o n k (down r0 uvw) (cut1 lo freq) nx ny image None (down_opt r0 (cut_opt lo flag)).
  Lemma mvis_first k lo r0 n m image r c : r < n -> c < k -> mvis k lo r0 (n + m) image r c = mvis k lo r0 n image r c.
  Proof.
    intros H1 H2. unfold mvis. change r with (0 + r) at 1. rewrite (Hrow o 0 n (n + m)) by (auto; lia). rewrite !down_down, !down_opt_down, Nat.add_0_r. reflexivity.
  Qed.
  Lemma mvis_second k lo r0 n m image r c : r < m -> c < k -> mvis k lo r0 (n + m) image (n + r) c = mvis k lo (r0 + n) m image r c.
  Proof. intros H1 H2. unfold mvis. rewrite (Hrow o n m (n + m)) by (auto; lia). now rewrite !down_down, !down_opt_down. Qed.
  Definition part (V : nat -> nat -> arr2 RC) (k lo x y r0 n : nat) : R :=
    ms2dirty G o d n k (down r0 uvw) (cut1 lo freq) (V r0 n) (down_opt r0 (cut_opt lo weights)) (down_opt r0 (cut_opt lo flag)) nx ny x y.
  Lemma part_add V k lo x y : x < nx -> y < ny -> (forall r0 n m r c, r < n -> c < k -> V r0 (n + m) r c = V r0 n r c) -> (forall r0 n m r c, r < m -> c < k -> V r0 (n + m) (n + r) c = V (r0 + n) m r c) ->
    forall r0 n m, part V k lo x y r0 (n + m) = (part V k lo x y r0 n + part V k lo x y (r0 + n)%nat m)%R.
  Proof.
    intros Hx Hy V1 V2 r0 n m. unfold part. rewrite Hadd by assumption. rewrite !down_down, !down_opt_down. f_equal.
    - apply Hin; auto.
    - apply Hin; auto. intros r c H1 H2. unfold down at 1. now apply V2.
  Qed.
  Lemma chunked_hessian image img : hessian_internal G o d (list_sum rows) (list_sum chans) uvw freq (list_sum bands) nx ny image (list_sum bands) idx (list_sum bands) counts weights flag = Ok img ->
    forall b x y, b < list_sum bands -> x < nx -> y < ny ->
    dask_hessian cpus G rows chans bands [nx] [ny] uvw freq image idx counts cell weights flag celly eps nthr ws d b x y = Ok (img b x y).
  Proof.
    intros Ei b x y Hb Hx Hy. unfold dask_hessian. destruct (aligned_block bands 0 0 chans idx counts b Ha ltac:(lia)) as (b1 & nb & q1 & nc & E & _ & B2 & _ & B4 & _ & _ & B7 & B8).
    unfold band_blocks. rewrite (aligned_length _ _ _ _ _ _ Ha), Nat.eqb_refl, E. cbn [bind]. rewrite !locate_one by assumption.
    pose proof (block_bins idx counts b1 nb q1 nc B7 B8) as Hbins.
    rewrite (rows_total _ (part (fun r0 n => mvis (counts b) (idx b) r0 n (image b)) (counts b) (idx b) x y)); [| |apply part_add; auto; [intros; now apply mvis_first|intros; now apply mvis_second]|exact Hr].
    - destruct (hessian_run G o d (list_sum rows) (list_sum chans) uvw freq (list_sum bands) idx (list_sum bands) counts 0 weights flag nx ny (aligned_whole _ _ _ _ (nonempty b Hb) Ha) (le_n _) (list_sum bands) image (le_n _)) as (im & E1 & V1).
      rewrite Ei in E1. injection E1 as <-. rewrite V1 by exact Hb. unfold part, mvis, regridded, degridded. rewrite Nat.sub_0_r, !down_0. reflexivity.
    - intros r0 n Hn. destruct (hessian_run G o d n nc (down r0 uvw) (cut1 q1 freq) nb (cut1 b1 idx) nb (cut1 b1 counts) q1 (cut_opt q1 (down_opt r0 weights)) (cut_opt q1 (down_opt r0 flag)) nx ny Hbins (le_n _) nb (window b1 0 0 image) (le_n _)) as (im & E1 & V1).
      rewrite E1. cbn [bind]. f_equal. rewrite !Nat.sub_0_r. rewrite V1 by lia. unfold part, mvis, regridded, degridded. destruct (B8 b B2) as (B9 & _). change (cut1 b1 counts (b - b1)) with (counts (b1 + (b - b1))). change (cut1 b1 idx (b - b1)) with (idx (b1 + (b - b1))).
      change (window b1 0 0 image (b - b1)) with (image (b1 + (b - b1))). replace (b1 + (b - b1)) with b by lia.
      rewrite cut1_cut1, !cut_opt_cut. replace (q1 + (idx b - q1)) with (idx b) by lia. now rewrite !down_cut_opt.
  Qed.
  Lemma chunked_residual image vis img : residual_internal G o d (list_sum rows) (list_sum chans) uvw freq (list_sum bands) nx ny image vis (list_sum bands) idx (list_sum bands) counts weights flag = Ok img ->
    forall b x y, b < list_sum bands -> x < nx -> y < ny ->
    dask_residual cpus G rows chans bands [nx] [ny] uvw freq image vis idx counts cell weights flag celly eps nthr ws d b x y = Ok (img b x y).
  Proof.
    intros Ei b x y Hb Hx Hy. unfold dask_residual. destruct (aligned_block bands 0 0 chans idx counts b Ha ltac:(lia)) as (b1 & nb & q1 & nc & E & _ & B2 & _ & B4 & _ & _ & B7 & B8).
    unfold band_blocks. rewrite (aligned_length _ _ _ _ _ _ Ha), Nat.eqb_refl, E. cbn [bind]. rewrite !locate_one by assumption.
    pose proof (block_bins idx counts b1 nb q1 nc B7 B8) as Hbins.
    rewrite (rows_total _ (part (fun r0 n r c => csub (vis (r0 + r) (idx b + c)) (mvis (counts b) (idx b) r0 n (image b) r c)) (counts b) (idx b) x y));
      [| |apply part_add; auto; [intros; f_equal; now apply mvis_first|intros r0 n m r c Hrm Hck; rewrite mvis_second by assumption; do 2 f_equal; lia]|exact Hr].
    - destruct (residual_run G o d (list_sum rows) (list_sum chans) uvw freq (list_sum bands) idx (list_sum bands) counts 0 weights flag nx ny (aligned_whole _ _ _ _ (nonempty b Hb) Ha) (le_n _) (list_sum bands) image vis (le_n _)) as (im & E1 & V1).
      rewrite Ei in E1. injection E1 as <-. rewrite V1 by exact Hb. unfold part, mvis, regridded, degridded. rewrite Nat.sub_0_r, !down_0. reflexivity.
    - intros r0 n Hn. destruct (residual_run G o d n nc (down r0 uvw) (cut1 q1 freq) nb (cut1 b1 idx) nb (cut1 b1 counts) q1 (cut_opt q1 (down_opt r0 weights)) (cut_opt q1 (down_opt r0 flag)) nx ny Hbins (le_n _) nb (window b1 0 0 image) (cut q1 (down r0 vis)) (le_n _)) as (im & E1 & V1).
      rewrite E1. cbn [bind]. f_equal. rewrite !Nat.sub_0_r. rewrite V1 by lia. unfold part, mvis, regridded, degridded. destruct (B8 b B2) as (B9 & _). change (cut1 b1 counts (b - b1)) with (counts (b1 + (b - b1))). change (cut1 b1 idx (b - b1)) with (idx (b1 + (b - b1))).
      change (window b1 0 0 image (b - b1)) with (image (b1 + (b - b1))). replace (b1 + (b - b1)) with b by lia.
      rewrite cut1_cut1, !cut_opt_cut, cut_cut. replace (q1 + (idx b - q1)) with (idx b) by lia. now rewrite !down_cut_opt.
  Qed.
End Chunks.
