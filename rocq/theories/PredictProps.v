(* C26-C29: the visibility prediction of africanus.rime *)
From Coq Require Import Permutation.
From Verif Require Import Prelude CRing PredictModel PredictSpec PredictProofs PredictProofs2
  DaskPredictModel DaskPredictSpec DaskPredictProofs DaskPredictProofs2.
Open Scope nat_scope.
Canonical GI.

(* ---- C26: predict_vis is the measurement equation; tmin is the smallest time index ---- *)
Theorem C26_measurement_equation (K : cops) (L : claws K) full nsrc nchan ncorr (a : predict_in K) :
  shapes full nsrc nchan ncorr a ->
  paired (p_dde1 a) (p_dde2 a) -> paired (p_die1 a) (p_die2 a) -> supplied a -> 0 < p_nrow a ->
  exists out, predict_vis a = Ok out /\
    v_ndim out = (if full then 4 else 3) /\ v_row out = p_nrow a /\ v_chan out = nchan /\ v_corr out = ncorr /\
    forall tmin, is_min (p_nrow a) (p_time a) tmin ->
    forall r f, r < p_nrow a -> f < nchan ->
      jeq full ncorr (v_at out r f) (measurement full (Z.to_nat (p_time a r - tmin)) a r f).
Proof. exact (predict_vis_spec L full nsrc nchan ncorr a). Qed.
Print Assumptions C26_measurement_equation.

(* apply_gains is the special case G_p V G_q^H *)
Theorem C26_apply_gains (K : cops) (L : claws K) (full : bool) nchan ncorr nrow time ant1 ant2
  (g1 g2 : die_arr K) (v : vis_arr K) :
  g_ndim g1 = (if full then 5 else 4) /\ g_chan g1 = nchan /\ g_corr g1 = ncorr ->
  g_ndim g2 = (if full then 5 else 4) /\ g_chan g2 = nchan /\ g_corr g2 = ncorr ->
  v_ndim v = (if full then 4 else 3) /\ v_row v = nrow /\ v_chan v = nchan /\ v_corr v = ncorr -> 0 < nrow ->
  exists out, apply_gains nrow time ant1 ant2 (Some g1) (Some v) (Some g2) = Ok out /\
    forall tmin, is_min nrow time tmin -> forall r f, r < nrow -> f < nchan ->
      let t := Z.to_nat (time r - tmin) in
      jeq full ncorr (v_at out r f) (sandwich full (g_at g1 t (ant1 r) f) (v_at v r f) (g_at g2 t (ant2 r) f)).
Proof. exact (gains_spec L full nchan ncorr nrow time ant1 ant2 g1 g2 v). Qed.
Print Assumptions C26_apply_gains.

(* ---- C27 ---- *)
Theorem C27_superposition (K : cops) (L : claws K) full n1 n2 nchan ncorr (a b : predict_in K) :
  shapes full n1 nchan ncorr a -> shapes full n2 nchan ncorr b ->
  p_nrow b = p_nrow a -> p_time b = p_time a -> p_ant1 b = p_ant1 a -> p_ant2 b = p_ant2 a ->
  paired (p_dde1 a) (p_dde2 a) -> paired (p_dde1 a) (p_dde1 b) -> paired (p_dde2 a) (p_dde2 b) -> paired (p_coh a) (p_coh b) ->
  p_die1 a = None -> p_die2 a = None -> p_die1 b = None -> p_die2 b = None -> p_bvis a = None -> p_bvis b = None ->
  supplied a -> 0 < p_nrow a ->
  exists va vb vc, predict_vis a = Ok va /\ predict_vis b = Ok vb /\
    predict_vis (with_sky a (cat_opt cat_dde (p_dde1 a) (p_dde1 b)) (cat_opt cat_coh (p_coh a) (p_coh b))
                            (cat_opt cat_dde (p_dde2 a) (p_dde2 b))) = Ok vc /\
    forall r f, r < p_nrow a -> f < nchan -> jeq full ncorr (v_at vc r f) (jadd (v_at va r f) (v_at vb r f)).
Proof. exact (superposition L full n1 n2 nchan ncorr a b). Qed.
Print Assumptions C27_superposition.

Theorem C27_reorder (K : cops) (L : claws K) full nsrc nchan ncorr (a : predict_in K) p :
  shapes full nsrc nchan ncorr a -> paired (p_dde1 a) (p_dde2 a) -> paired (p_die1 a) (p_die2 a) ->
  supplied a -> 0 < p_nrow a -> Permutation (map p (seq 0 nsrc)) (seq 0 nsrc) ->
  exists va vb, predict_vis a = Ok va /\
    predict_vis (with_sky a (option_map (perm_dde p) (p_dde1 a)) (option_map (perm_coh p) (p_coh a))
                            (option_map (perm_dde p) (p_dde2 a))) = Ok vb /\
    forall r f, r < p_nrow a -> f < nchan -> jeq full ncorr (v_at vb r f) (v_at va r f).
Proof. exact (reorder L full nsrc nchan ncorr a p). Qed.
Print Assumptions C27_reorder.

(* ---- C28 ---- *)
(* every value the stream reduction can give under any schedule, and every value of any
   reduction tree, leads to that block of the un-chunked prediction *)
Theorem C28_chunked_predict (K : cops) (L : claws K) full nsrc nchan ncorr (a : predict_in K) ch whole :
  shapes full nsrc nchan ncorr a -> paired (p_dde1 a) (p_dde2 a) -> paired (p_die1 a) (p_die2 a) ->
  chunks_ok ch nsrc nchan a -> predict_vis a = Ok whole ->
  (p_dde1 a <> None \/ p_coh a <> None) ->
  forall rb cb v, rb < length (ck_row ch) -> cb < length (ck_chan ch) -> reduction_value ch a rb cb v ->
  exists s out, v = VVis s /\ finish_block ch a (Some s) rb cb = Ok out /\
    block_equals full ncorr ch rb cb whole out.
Proof. exact (chunked_predict L full nsrc nchan ncorr a ch whole). Qed.
Print Assumptions C28_chunked_predict.

(* the stream graph is built and some schedule completes each output block *)
Theorem C28_stream_completes (K : cops) full nsrc nchan ncorr (a : predict_in K) ch :
  shapes full nsrc nchan ncorr a -> chunks_ok ch nsrc nchan a -> paired (p_dde1 a) (p_dde2 a) ->
  (p_dde1 a <> None \/ p_coh a <> None) ->
  exists dsk, linear_graph ch a = Ok dsk /\
  forall rb cb, rb < length (ck_row ch) -> cb < length (ck_chan ch) ->
  exists sched v, execute predict_func dsk (input_store ch a) sched (out_key a rb cb) = Some v.
Proof. exact (stream_live full nsrc nchan ncorr a ch). Qed.
Print Assumptions C28_stream_completes.

(* with direction independent terms (and possibly base visibilities) only *)
Theorem C28_no_sources (K : cops) (L : claws K) full nsrc nchan ncorr (a : predict_in K) ch whole :
  shapes full nsrc nchan ncorr a -> paired (p_dde1 a) (p_dde2 a) -> paired (p_die1 a) (p_die2 a) ->
  chunks_ok ch nsrc nchan a -> predict_vis a = Ok whole ->
  p_dde1 a = None -> p_coh a = None -> p_die1 a <> None ->
  forall rb cb, rb < length (ck_row ch) -> cb < length (ck_chan ch) ->
  exists out, finish_block ch a None rb cb = Ok out /\ block_equals full ncorr ch rb cb whole out.
Proof. exact (chunked_no_sum L full nsrc nchan ncorr a ch whole). Qed.
Print Assumptions C28_no_sources.

(* With base visibilities only, the numpy prediction returns them but the dask prediction
   raises: the result type is inferred without base_vis. *)
Theorem C28_base_vis_only_refuted :
  exists (a : predict_in GI) ch whole, predict_vis a = Ok whole /\ chunks_ok ch 0 1 a /\
    shapes true 0 1 2 a /\ finish_block ch a None 0 0 = Raise ValueError.
Proof.
  exists {| p_nrow := 1; p_time := fun _ => 0%Z; p_ant1 := fun _ => 0; p_ant2 := fun _ => 1;
            p_dde1 := None; p_coh := None; p_dde2 := None; p_die1 := None;
            p_bvis := Some (@Build_vis_arr GI 4 1 1 2 (fun _ _ _ _ => Gi 1 1));
            p_die2 := None |}.
  exists {| ck_row := [1]; ck_time := [1]; ck_src := [0]; ck_chan := [1] |}.
  eexists. split; [reflexivity|]. split.
  - constructor; try reflexivity; try discriminate.
    + intros [|rb] H; simpl in H; [auto|lia].
    + intros tmin [[r [Hr Hr']] _] [|rb] H1; simpl in H1; [|lia]. cbn in Hr, Hr'. unfold is_min, blk.
      cbn. split; [exists 0; split; [lia|]|intros]; lia.
  - split; [|reflexivity]. constructor; cbn; try discriminate. intros b H. injection H as <-. cbn. tauto.
Qed.
Print Assumptions C28_base_vis_only_refuted.

(* LinearReduction.__len__ is the number of output blocks, not the number of its keys, which has a further factor: the
   number of blocks of sources *)
Theorem C28_graph_length : forall {K : cops} (a : predict_in K) ch dsk, linear_graph ch a = Ok dsk ->
    lr_len ([0; 3] ++ cdims (ncorr_dims a)) (lr_dim_blocks ch) = length (ck_row ch) * length (ck_chan ch) /\
    length dsk = length (ck_src ch) * (length (ck_row ch) * length (ck_chan ch)).
Proof. intros K a ch dsk. exact (graph_length a ch dsk). Qed.
Print Assumptions C28_graph_length.
Theorem C28_graph_length_refuted :
  exists (a : predict_in GI) ch dsk, linear_graph ch a = Ok dsk /\
    lr_len ([0; 3] ++ cdims (ncorr_dims a)) (lr_dim_blocks ch) = 1 /\ length dsk = 2.
Proof.
  exists {| p_nrow := 1; p_time := fun _ => 0%Z; p_ant1 := fun _ => 0; p_ant2 := fun _ => 1;
            p_dde1 := None; p_coh := Some (@Build_coh_arr GI 5 2 1 1 2 (fun _ _ _ _ _ => Gi 1 0));
            p_dde2 := None; p_die1 := None; p_bvis := None; p_die2 := None |}.
  exists {| ck_row := [1]; ck_time := [1]; ck_src := [1; 1]; ck_chan := [1] |}.
  eexists. split; [vm_compute; reflexivity|]. split; vm_compute; reflexivity.
Qed.
Print Assumptions C28_graph_length_refuted.

(* ---- C29 ---- *)
Theorem C29_checks t a1 a2 dde1 coh dde2 die1 bvis die2 :
  match predict_checks t a1 a2 dde1 coh dde2 die1 bvis die2 with
  | Ok _ => t = 1 /\ a1 = 1 /\ a2 = 1 /\ admissible dde1 coh dde2 die1 bvis die2
  | Raise e => (e = AssertionError /\ ~ (t = 1 /\ a1 = 1 /\ a2 = 1)) \/
               (e = ValueError /\ ~ admissible dde1 coh dde2 die1 bvis die2)
  end.
Proof. exact (checks_decide t a1 a2 dde1 coh dde2 die1 bvis die2). Qed.
Print Assumptions C29_checks.

Theorem C29_accepts (K : cops) (a : predict_in K) :
  match predict_vis a with
  | Ok _ => ndims_admissible a /\ supplied a /\ 0 < p_nrow a
  | Raise e => e = ValueError /\ ~ (ndims_admissible a /\ supplied a /\ 0 < p_nrow a)
  end.
Proof. exact (predict_accepts a). Qed.
Print Assumptions C29_accepts.

Theorem C29_dask_chunks rows dde1 dde2 die1 die2 :
  (dask_checks rows dde1 dde2 die1 die2 = Ok tt /\ chunks_accepted rows 2 1 dde1 dde2 /\ chunks_accepted rows 1 0 die1 die2) \/
  (dask_checks rows dde1 dde2 die1 die2 = Raise ValueError /\
   ~ (chunks_accepted rows 2 1 dde1 dde2 /\ chunks_accepted rows 1 0 die1 die2)).
Proof. exact (dask_checks_spec rows dde1 dde2 die1 die2). Qed.
Print Assumptions C29_dask_chunks.

(* ---- the hypotheses are met by concrete cases ---- *)
(* three sources, four rows, two times, two channels, 2x2 matrices, every term supplied *)
Definition ex_dde (k : Z) : dde_arr GI :=
  {| d_ndim := 6; d_src := 3; d_chan := 2; d_corr := 2;
     d_at := fun s t a f i j => Gi (k + Z.of_nat (s + t + i)) (Z.of_nat (a + f + j)) |}.
Definition ex_die (k : Z) : die_arr GI :=
  {| g_ndim := 5; g_chan := 2; g_corr := 2;
     g_at := fun t a f i j => Gi (Z.of_nat (t + a + i)) (k - Z.of_nat (f + j)) |}.
Definition ex_coh : coh_arr GI :=
  {| h_ndim := 5; h_src := 3; h_row := 4; h_chan := 2; h_corr := 2;
     h_at := fun s r f i j => Gi (Z.of_nat (s * r + i)) (Z.of_nat (f + j) - 1) |}.
Definition ex_vis : vis_arr GI :=
  {| v_ndim := 4; v_row := 4; v_chan := 2; v_corr := 2; v_at := fun r f i j => Gi (Z.of_nat (r + i)) (Z.of_nat (f + j)) |}.
Definition ex_pred : predict_in GI :=
  {| p_nrow := 4; p_time := of_list 0%Z [7; 7; 8; 8]%Z; p_ant1 := of_list 0 [0; 0; 0; 1]; p_ant2 := of_list 0 [1; 2; 1; 2];
     p_dde1 := Some (ex_dde 1); p_coh := Some ex_coh; p_dde2 := Some (ex_dde 2);
     p_die1 := Some (ex_die 1); p_bvis := Some ex_vis; p_die2 := Some (ex_die 3) |}.
Definition ex_ck : chunking := {| ck_row := [2; 2]; ck_time := [1; 1]; ck_src := [2; 1]; ck_chan := [1; 1] |}.

Ltac some_shape := let x := fresh in let H := fresh in intros x H; injection H as <-; cbn; tauto.
Example ex_shapes : shapes true 3 2 2 ex_pred.
Proof. constructor; some_shape. Qed.
Example ex_paired : paired (p_dde1 ex_pred) (p_dde2 ex_pred) /\ paired (p_die1 ex_pred) (p_die2 ex_pred).
Proof. unfold paired. cbn. split; split; discriminate. Qed.
Example ex_supplied : supplied ex_pred /\ 0 < p_nrow ex_pred.
Proof. unfold supplied. cbn. split; [left; discriminate|lia]. Qed.
Lemma ex_min m : is_min 4 (p_time ex_pred) m -> m = 7%Z.
Proof.
  intros [[r [Hr E]] H]. pose proof (H 0 ltac:(lia)) as H0. cbn in H0. 
  destruct r as [|[|[|[|r]]]]; cbn in E; lia.
Qed.
Example ex_chunks : chunks_ok ex_ck 3 2 ex_pred.
Proof.
  constructor; try reflexivity; try discriminate.
  - intros [|[|rb]] H; cbn in *; lia.
  - intros m Hm rb Hrb. apply ex_min in Hm. subst m. cbn in Hrb.
    destruct rb as [|[|rb]]; [| |lia]; (split; [exists 0; split; [cbn; lia|reflexivity]|]);
      intros [|[|r]] Hr; cbn in *; lia.
Qed.
(* the stream graph executed in an arbitrary order gives block (1, 1) of the whole prediction *)
Example ex_stream :
  match linear_graph ex_ck ex_pred, predict_vis ex_pred with
  | Ok dsk, Ok whole =>
      let s0 := KInter [0; 1; 1; 0; 0] in let s1 := KFinal [1; 1; 0; 0] in
      match execute predict_func dsk (input_store ex_ck ex_pred) [s1; s0; s0; s1] s1 with
      | Some (VVis v) =>
          match finish_block ex_ck ex_pred (Some v) 1 1 with
          | Ok out => to_list 2 (fun r => to_list 2 (fun i => to_list 2 (fun j => v_at out r 0 i j))) =
                      to_list 2 (fun r => to_list 2 (fun i => to_list 2 (fun j => v_at whole (2 + r) 1 i j)))
          | Raise _ => False
          end
      | _ => False
      end
  | _, _ => False
  end.
Proof. vm_compute. reflexivity. Qed.
Example ex_tree : Permutation (leaves (Node (Leaf 1) (Leaf 0))) (seq 0 (length (ck_src ex_ck))).
Proof. cbn. apply perm_swap. Qed.
(* diagonal terms without coherencies, and gains only *)
Example ex_accepted :
  ndims_admissible ex_pred /\
  admissible (Some 5) None (Some 5) None None None /\ ~ admissible (Some 5) None (Some 6) None None None /\
  ~ admissible None None None (Some 4) (Some 3) None.
Proof.
  split; [|split; [|split]].
  - split; [|split]; [split; discriminate|split; discriminate|]. exists true. cbn. tauto.
  - split; [|split]; [split; discriminate|tauto|]. exists false. cbn. tauto.
  - intros [_ [_ [full [H1 [H2 _]]]]]. destruct full; cbn in *; lia.
  - intros [_ [[_ H] _]]. discriminate (H eq_refl).
Qed.
Example ex_dask_ok : dask_checks [2; 2] (Some [[2; 1]; [1; 1]; [3]; [1; 1]]) (Some [[2; 1]; [1; 1]; [3]; [1; 1]]) None None = Ok tt.
Proof. reflexivity. Qed.
Example ex_dask_bad : dask_checks [2; 2] (Some [[2; 1]; [1; 1]; [2; 1]; [1; 1]]) (Some [[2; 1]; [1; 1]; [2; 1]; [1; 1]]) None None = Raise ValueError.
Proof. reflexivity. Qed.
