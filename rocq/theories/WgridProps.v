(* C73: wide-field images with the ducc library *)
From Coq Require Import Reals Lra FunctionalExtensionality.
From Verif Require Import Prelude CRing CplxR DftModel WgridModel WgridSpec WgridProofs WgridProofs2.
Close Scope R_scope.
Open Scope nat_scope.

(* the dirty image of a band is the library's image of the channels of its bin, counted from the lowest bin *)
Theorem C73_dirty_value : forall cpus G nrow nchan uvw freq vt vis nband idx ncounts counts low nx ny cell weights flag celly eps nthr ws d,
  bins_in nchan nband idx counts low -> nband <= ncounts -> 0 < nrow -> 0 < nchan -> vt <> OtherType ->
  exists img, dirty cpus G nrow nchan uvw freq vt vis nband idx ncounts counts nx ny cell weights flag celly eps nthr ws d = Ok img /\
    forall b x y, b < nband -> let lo := idx b - low in
      img b x y = ms2dirty G (options cpus cell celly eps nthr ws) d nrow (counts b) uvw (fun c => freq (lo + c)) (fun r c => vis r (lo + c)) (cut_opt lo weights) (cut_opt lo flag) nx ny x y.
Proof. intros. unfold dirty. now apply dirty_run. Qed.
Print Assumptions C73_dirty_value.
(* a channel of the model visibilities comes from the last band whose bin has it, and is zero when there is none *)
Theorem C73_model_value : forall G o nrow nchan uvw freq nband image idx ncounts counts low nx ny weights flag,
  bins_in nchan nband idx counts low -> nband <= ncounts ->
  exists v, model_internal G o nrow nchan uvw freq nband nx ny image nband idx ncounts counts weights flag = Ok v /\
    (forall r c, (forall b, b < nband -> ~ idx b - low <= c < idx b - low + counts b) -> v r c = c0) /\
    (forall r c b, b < nband -> idx b - low <= c < idx b - low + counts b -> (forall b', b < b' < nband -> ~ idx b' - low <= c < idx b' - low + counts b') ->
       let lo := idx b - low in v r c = dirty2ms G o nrow (counts b) uvw (fun c => freq (lo + c)) nx ny (image b) (cut_opt lo weights) (cut_opt lo flag) r (c - lo)).
Proof. intros. now apply model_run. Qed.
Print Assumptions C73_model_value.
(* the Hessian degrids without weights and grids with them *)
Theorem C73_hessian_value : forall G o d nrow nchan uvw freq nband image idx ncounts counts low nx ny weights flag,
  bins_in nchan nband idx counts low -> nband <= ncounts ->
  exists img, hessian_internal G o d nrow nchan uvw freq nband nx ny image nband idx ncounts counts weights flag = Ok img /\
    forall b x y, b < nband -> let lo := idx b - low in
      img b x y = ms2dirty G o d nrow (counts b) uvw (fun c => freq (lo + c))
        (dirty2ms G o nrow (counts b) uvw (fun c => freq (lo + c)) nx ny (image b) None (cut_opt lo flag)) (cut_opt lo weights) (cut_opt lo flag) nx ny x y.
Proof. intros. now apply hessian_run. Qed.
Print Assumptions C73_hessian_value.
(* the residual image is the dirty image of the data minus the Hessian of the model *)
Theorem C73_residual : forall G o d nrow nchan uvw freq nband idx ncounts counts low weights flag nx ny vt vis image,
  linear_gridding G -> bins_in nchan nband idx counts low -> nband <= ncounts -> 0 < nrow -> 0 < nchan -> vt <> OtherType ->
  exists dirty hessian resid, dirty_internal G o d nrow nchan uvw freq vt vis nband idx ncounts counts nx ny weights flag = Ok dirty /\
    hessian_internal G o d nrow nchan uvw freq nband nx ny image nband idx ncounts counts weights flag = Ok hessian /\
    residual_internal G o d nrow nchan uvw freq nband nx ny image vis nband idx ncounts counts weights flag = Ok resid /\
    forall b x y, b < nband -> x < nx -> y < ny -> resid b x y = (dirty b x y - hessian b x y)%R.
Proof. intros. eapply residual_split; eauto. Qed.
Print Assumptions C73_residual.
(* predicting visibilities and imaging them are adjoint when the bins split the channels *)
Theorem C73_adjoint : forall G o d nrow nchan uvw freq nband idx counts weights flag nx ny vt vis image,
  adjoint_pair G -> 0 < nband -> bins_cover nband idx counts nchan -> 0 < nrow -> 0 < nchan -> vt <> OtherType ->
  exists v img, model_internal G o nrow nchan uvw freq nband nx ny image nband idx nband counts weights flag = Ok v /\
    dirty_internal G o d nrow nchan uvw freq vt vis nband idx nband counts nx ny weights flag = Ok img /\
    vis_dot nrow nchan v vis = csum (K := RR) nband (fun b => image_dot nx ny (image b) (img b)).
Proof. exact adjoint_bands. Qed.
Print Assumptions C73_adjoint.
(* the Hessian is symmetric, band by band *)
Theorem C73_hessian_symmetric : forall G o d nrow nchan uvw freq nband idx counts weights flag nx ny low a b,
  adjoint_pair G -> weights_multiply G -> bins_in nchan nband idx counts low ->
  exists ha hb, hessian_internal G o d nrow nchan uvw freq nband nx ny a nband idx nband counts weights flag = Ok ha /\
    hessian_internal G o d nrow nchan uvw freq nband nx ny b nband idx nband counts weights flag = Ok hb /\
    forall k, k < nband -> image_dot nx ny (a k) (hb k) = image_dot nx ny (ha k) (b k).
Proof. exact hessian_symmetric. Qed.
Print Assumptions C73_hessian_symmetric.
(* blocks of rows, and blocks of channels going with blocks of bands: the chunked functions give what the whole arrays give *)
Theorem C73_chunked_dirty : forall cpus G rows chans bands uvw freq idx counts nx ny cell weights flag celly eps nthr ws d,
  aligned 0 bands 0 chans idx counts -> Forall (fun n => 0 < n) rows -> adds_rows G ->
  forall vt vis img, vt <> OtherType ->
  dirty cpus G (list_sum rows) (list_sum chans) uvw freq vt vis (list_sum bands) idx (list_sum bands) counts nx ny cell weights flag celly eps nthr ws d = Ok img ->
  forall b x y, b < list_sum bands -> x < nx -> y < ny ->
  dask_dirty cpus G rows chans bands uvw freq vt vis idx counts nx ny cell weights flag celly eps nthr ws d b x y = Ok (img b x y).
Proof. intros. eapply chunked_dirty; eauto. Qed.
Print Assumptions C73_chunked_dirty.
Theorem C73_chunked_hessian : forall cpus G rows chans bands uvw freq idx counts nx ny cell weights flag celly eps nthr ws d,
  aligned 0 bands 0 chans idx counts -> Forall (fun n => 0 < n) rows -> adds_rows G -> reads_inside G -> row_by_row G ->
  forall image img, hessian_internal G (options cpus cell celly eps nthr ws) d (list_sum rows) (list_sum chans) uvw freq (list_sum bands) nx ny image (list_sum bands) idx (list_sum bands) counts weights flag = Ok img ->
  forall b x y, b < list_sum bands -> x < nx -> y < ny ->
  dask_hessian cpus G rows chans bands [nx] [ny] uvw freq image idx counts cell weights flag celly eps nthr ws d b x y = Ok (img b x y).
Proof. intros. eapply chunked_hessian; eauto. Qed.
Print Assumptions C73_chunked_hessian.
Theorem C73_chunked_residual : forall cpus G rows chans bands uvw freq idx counts nx ny cell weights flag celly eps nthr ws d,
  aligned 0 bands 0 chans idx counts -> Forall (fun n => 0 < n) rows -> adds_rows G -> reads_inside G -> row_by_row G ->
  forall image vis img, residual_internal G (options cpus cell celly eps nthr ws) d (list_sum rows) (list_sum chans) uvw freq (list_sum bands) nx ny image vis (list_sum bands) idx (list_sum bands) counts weights flag = Ok img ->
  forall b x y, b < list_sum bands -> x < nx -> y < ny ->
  dask_residual cpus G rows chans bands [nx] [ny] uvw freq image vis idx counts cell weights flag celly eps nthr ws d b x y = Ok (img b x y).
Proof. intros. eapply chunked_residual; eauto. Qed.
Print Assumptions C73_chunked_residual.
Theorem C73_chunked_model : forall cpus G rows chans bands uvw freq idx counts nx ny cell weights flag celly eps nthr ws image v,
  aligned 0 bands 0 chans idx counts -> row_by_row G ->
  model_internal G (options cpus cell celly eps nthr ws) (list_sum rows) (list_sum chans) uvw freq (list_sum bands) nx ny image (list_sum bands) idx (list_sum bands) counts weights flag = Ok v ->
  forall r c, r < list_sum rows -> c < list_sum chans ->
  dask_model cpus G rows chans bands [nx] [ny] uvw freq image idx counts cell weights flag celly eps nthr ws r c = Ok (v r c).
Proof. intros. eapply chunked_model; eauto. Qed.
Print Assumptions C73_chunked_model.

(* the exact library has every property assumed above *)
Example C73_library : reads_inside exact /\ linear_gridding exact /\ adds_rows exact /\ row_by_row exact /\ adjoint_pair exact /\ weights_multiply exact.
Proof. exact (conj exact_reads (conj exact_linear (conj exact_adds (conj exact_rows (conj exact_adjoint exact_weights))))). Qed.
(* bins of two channels and of one, in two blocks *)
Example C73_bins : bins_cover 2 (fun b => 2 * b - (b / 2)) (fun b => 2 - b) 3 /\ bins_in 3 2 (fun b => 2 * b - (b / 2)) (fun b => 2 - b) 0 /\
  aligned 0 [1; 1] 0 [2; 1] (fun b => 2 * b - (b / 2)) (fun b => 2 - b).
Proof.
  split; [split; [reflexivity|split; [intros [|[|]] H; try lia; reflexivity|reflexivity]]|]. split.
  - split; [exists 0; split; [lia|reflexivity]|]. intros [|[|]] H; cbn; lia.
  - cbn [aligned]. split; [lia|]. split; [exists 0; split; [lia|reflexivity]|]. split; [intros [|[|]] H; cbn; lia|]. split; [lia|]. split; [exists 1; split; [lia|reflexivity]|]. split; [intros [|[|]] H; cbn; lia|exact I].
Qed.

(* what goes wrong, with the exact library and all baselines zero *)
Definition flat : arr2 R := fun _ _ => 0%R.
Lemma flat_phase o freq nx ny r c x y : cis (phase_of o flat freq nx ny r c x y) = ((1, 0)%R : RC) /\ cis (- phase_of o flat freq nx ny r c x y) = ((1, 0)%R : RC).
Proof. assert (E : phase_of o flat freq nx ny r c x y = 0%R) by (unfold phase_of, flat; ring). rewrite E, Ropp_0. unfold cis. now rewrite cos_0, sin_0. Qed.
Lemma flat_image o d nrow nchan freq ms nx ny x y : ms2dirty exact o d nrow nchan flat freq ms None None nx ny x y = csum (K := RR) nrow (fun r => csum (K := RR) nchan (fun c => re (ms r c))).
Proof. cbn [ms2dirty exact used weight_at]. apply (csum_ext (K := RR)). intros r _. apply (csum_ext (K := RR)). intros c _. destruct (flat_phase o freq nx ny r c x y) as (-> & _). destruct (ms r c). unfold re. refine (_ : @eq R _ _). cbn. ring. Qed.
Lemma flat_vis o nrow nchan freq nx ny image r c : dirty2ms exact o nrow nchan flat freq nx ny image None None r c = csum nx (fun x => csum ny (fun y => ofR (image x y))).
Proof.
  cbn [dirty2ms exact used weight_at]. transitivity (csum nx (fun x => csum ny (fun y => cmul (ofR (image x y)) (cis (- phase_of o flat freq nx ny r c x y))))).
  - generalize (csum nx (fun x => csum ny (fun y => cmul (ofR (image x y)) (cis (- phase_of o flat freq nx ny r c x y))))). intros [p q]. unfold ofR. apply injective_projections; cbn; ring.
  - apply csum_ext. intros x _. apply csum_ext. intros y _. destruct (flat_phase o freq nx ny r c x y) as (_ & ->). unfold ofR. apply injective_projections; cbn; ring.
Qed.
(* bins that do not start at channel zero are moved there: of two channels, the second of which is asked for, the first is imaged *)
Theorem C73_offset_refuted : exists vis o img, dirty_internal exact o true 1 2 flat (fun _ => 1%R) Complex128 vis 1 (fun _ => 1) 1 (fun _ => 1) 1 1 None None = Ok img /\
  img 0 0 0 <> ms2dirty exact o true 1 1 flat (fun _ => 1%R) (fun r c => vis r (1 + c)) None None 1 1 0 0 /\
  img 0 0 0 = ms2dirty exact o true 1 1 flat (fun _ => 1%R) vis None None 1 1 0 0.
Proof.
  exists (fun _ c => ofR (INR c)), (options 1 1%R None 1%R 1 true). eexists. split; [reflexivity|]. cbn [Nat.eqb]. rewrite !flat_image. cbn. split; [lra|reflexivity].
Qed.
Print Assumptions C73_offset_refuted.
(* two blocks of bands over one block of channels: the bins of the second block are counted from its own lowest bin *)
Theorem C73_one_channel_block_refuted : exists vis img u, dirty 1 exact 1 2 flat (fun _ => 1%R) Complex128 vis 2 (fun b => b) 2 (fun _ => 1) 1 1 1%R None None None 1%R 1 true true = Ok img /\
  dask_dirty 1 exact [1] [2] [1; 1] flat (fun _ => 1%R) Complex128 vis (fun b => b) (fun _ => 1) 1 1 1%R None None None 1%R 1 true true 1 0 0 = Ok u /\ u <> img 1 0 0.
Proof.
  exists (fun _ c => ofR (INR c)). eexists. eexists. split; [reflexivity|]. split; [reflexivity|]. cbn [Nat.eqb Nat.sub].
  change (down 0 flat) with flat. cbn -[exact ms2dirty]. rewrite ?flat_image. change (down 0 flat) with flat. rewrite ?flat_image. cbn. lra.
Qed.
Print Assumptions C73_one_channel_block_refuted.
(* an image chunked in x: the Hessian sees each chunk alone ... *)
Theorem C73_hessian_image_chunks_refuted : exists image img u, hessian_internal exact (options 1 1%R None 1%R 1 true) true 1 1 flat (fun _ => 1%R) 1 2 1 image 1 (fun _ => 0) 1 (fun _ => 1) None None = Ok img /\
  dask_hessian 1 exact [1] [1] [1] [1; 1] [1] flat (fun _ => 1%R) image (fun _ => 0) (fun _ => 1) 1%R None None None 1%R 1 true true 0 0 0 = Ok u /\ u <> img 0 0 0.
Proof.
  exists (fun _ _ _ => 1%R). eexists. eexists. split; [reflexivity|]. split; [reflexivity|]. cbn [Nat.eqb Nat.sub]. change (down 0 flat) with flat. rewrite ?flat_image. cbn -[exact dirty2ms ms2dirty].
  change (down 0 flat) with flat. rewrite ?flat_image, ?flat_vis. cbn -[exact dirty2ms ms2dirty]. rewrite ?flat_vis. cbn. unfold window. lra.
Qed.
Print Assumptions C73_hessian_image_chunks_refuted.
(* ... and the model visibilities leave all but the first out *)
Theorem C73_model_image_chunks_refuted : exists image v u, model_internal exact (options 1 1%R None 1%R 1 true) 1 1 flat (fun _ => 1%R) 1 2 1 image 1 (fun _ => 0) 1 (fun _ => 1) None None = Ok v /\
  dask_model 1 exact [1] [1] [1] [1; 1] [1] flat (fun _ => 1%R) image (fun _ => 0) (fun _ => 1) 1%R None None None 1%R 1 true 0 0 = Ok u /\ u <> v 0 0.
Proof.
  exists (fun _ _ _ => 1%R). eexists. eexists. split; [reflexivity|]. split; [reflexivity|]. cbn -[exact dirty2ms ms2dirty]. change (down 0 flat) with flat. rewrite ?flat_vis. cbn. intros H. apply (f_equal fst) in H. cbn in H. unfold window in H. lra.
Qed.
Print Assumptions C73_model_image_chunks_refuted.
(* arguments *)
Theorem C73_arguments : forall cpus G nrow nchan uvw freq vt vis nidx idx ncounts counts nx ny cell weights flag celly eps nthr ws d img,
  dirty cpus G nrow nchan uvw freq vt vis nidx idx ncounts counts nx ny cell weights flag celly eps nthr ws d = Ok img ->
  0 < nidx /\ nidx <= ncounts /\ 0 < nrow /\ 0 < nchan /\ vt <> OtherType.
Proof. exact dirty_arguments. Qed.
Print Assumptions C73_arguments.
(* what the library is given: cell sizes, accuracy, stacking, the data of the bin, as many threads as processors when none are asked for *)
Theorem C73_passed_on : forall cpus G nrow nchan uvw freq vt vis nx ny cell weights flag celly eps nthr ws d img x y,
  dirty cpus G nrow nchan uvw freq vt vis 1 (fun _ => 0) 1 (fun _ => nchan) nx ny cell weights flag celly eps nthr ws d = Ok img ->
  img 0 x y = ms2dirty G {| pixsize_x := cell; pixsize_y := match celly with None => cell | Some c => c end; epsilon := eps; nthreads := match nthr with O => cpus | S _ => nthr end; do_wstacking := ws |}
    d nrow nchan uvw freq vis weights flag nx ny x y.
Proof.
  intros *. unfold dirty, dirty_internal. cbn [lowest for_ bind]. destruct (_ || _); [discriminate|]. destruct vt; try discriminate; cbn [forM bin Nat.leb orb bind]; (intros E; injection E as <-);
    cbn [Nat.eqb Nat.sub Nat.add Nat.min]; rewrite Nat.min_id, Nat.sub_0_r; unfold options, cut1, cut, cut_opt; (destruct weights, flag; destruct nthr; reflexivity).
Qed.
Print Assumptions C73_passed_on.
(* without bands there is no lowest bin *)
Theorem C73_no_bands : forall G o d nrow nchan uvw freq vt vis nband image idx ncounts counts nx ny weights flag,
  dirty_internal G o d nrow nchan uvw freq vt vis 0 idx ncounts counts nx ny weights flag = Raise ValueError /\
  model_internal G o nrow nchan uvw freq nband nx ny image 0 idx ncounts counts weights flag = Raise ValueError /\
  hessian_internal G o d nrow nchan uvw freq nband nx ny image 0 idx ncounts counts weights flag = Raise ValueError /\
  residual_internal G o d nrow nchan uvw freq nband nx ny image vis 0 idx ncounts counts weights flag = Raise ValueError.
Proof. intros. repeat split; reflexivity. Qed.
Print Assumptions C73_no_bands.

(* two blocks of channels over one block of bands: every block of channels is given the image of the first band *)
Theorem C73_one_band_block_refuted : exists image v u, model_internal exact (options 1 1%R None 1%R 1 true) 1 2 flat (fun _ => 1%R) 2 1 1 image 2 (fun b => b) 2 (fun _ => 1) None None = Ok v /\
  dask_model 1 exact [1] [1; 1] [2] [1] [1] flat (fun _ => 1%R) image (fun b => b) (fun _ => 1) 1%R None None None 1%R 1 true 0 1 = Ok u /\ u <> v 0 1 /\ u = v 0 0.
Proof.
  exists (fun b _ _ => INR b). eexists. eexists. split; [reflexivity|]. split; [reflexivity|].
  cbn -[exact dirty2ms ms2dirty INR]. change (down 0 flat) with flat. rewrite ?flat_vis. cbn -[INR]. unfold window. split; [|reflexivity].
  intros H. apply (f_equal fst) in H. cbn in H. lra.
Qed.
Print Assumptions C73_one_band_block_refuted.
