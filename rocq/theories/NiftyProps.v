(* C72: gridding with nifty in streams *)
From Coq Require Import Reals Lra Permutation.
From Verif Require Import Prelude CRing CplxR NiftyModel NiftySpec NiftyProofs NiftyProofs2.
Close Scope R_scope.
Open Scope nat_scope.

(* the graph for any number of row blocks and streams: every row block is gridded once, from its own baselines, indices,
   visibilities and weights ... *)
Theorem C72_gridded_once : forall n s, 0 < n -> (1 <= s)%Z -> exists dsk, graph n s = Ok dsk /\ all_blocks dsk = map (fun rb => (rb, rb, (rb, 0), (rb, 0))) (seq 0 n).
Proof. intros n s Hn Hs. destruct (graph_total n s Hn Hs) as (dsk & E). exists dsk. split; [exact E|]. now apply (blocks_once n s). Qed.
Print Assumptions C72_gridded_once.
(* ... and every intermediate grid is read once *)
Theorem C72_consumed_once : forall n s dsk, 0 < n -> (1 <= s)%Z -> graph n s = Ok dsk -> Permutation (all_reads dsk) (map (fun rb => KGrid rb 0) (seq 0 n)).
Proof. exact consumed_once. Qed.
Print Assumptions C72_consumed_once.
(* the mappings have as many keys as they say, all different *)
Theorem C72_lengths : forall n s a b, 0 < n -> (1 <= s)%Z -> stream_dict n s = Ok a -> final_dict n s = Ok b -> length a = stream_len n /\ length b = final_len /\ NoDup (map fst (a ++ b)).
Proof. exact graph_lengths. Qed.
Print Assumptions C72_lengths.
(* every schedule that gives a result gives the sum over all row blocks, whether the library adds in place or makes new grids *)
Theorem C72_any_schedule : forall gridding in_place n s dsk sched g, adds_in gridding -> 0 < n -> (1 <= s)%Z -> graph n s = Ok dsk ->
  value (execute gridding in_place false dsk sched) (KSum 0 0) = Some g -> forall x y, g x y = csum n (fun rb => gridding rb rb (rb, 0) (rb, 0) None x y).
Proof. exact graph_schedule. Qed.
Print Assumptions C72_any_schedule.
(* and from every state reached the tasks of the graph, in its order, give a result *)
Theorem C72_completes : forall gridding in_place n s dsk sched, 0 < n -> (1 <= s)%Z -> graph n s = Ok dsk ->
  exists g, value (execute gridding in_place false dsk (sched ++ map fst dsk)) (KSum 0 0) = Some g.
Proof. exact graph_completes. Qed.
Print Assumptions C72_completes.
(* the grid does not depend on row chunks, streams or schedule: it is the grid of all rows *)
Theorem C72_whole : forall N gc wmin wmax d freq_chunks rows streams in_place corr g, accumulates N -> adds_rows N -> (forall s, streams = Some s -> (1 <= s)%Z) ->
  grid_result N gc wmin wmax d freq_chunks rows streams in_place corr (Ok g) -> forall x y,
    g x y = gridded N gc wmin wmax (d_nchan d) (d_freq d) (list_sum rows) (d_uvw d) (fun r c => d_flags d r c corr) (fun r c => d_vis d r c corr) (fun r c => d_weights d r c corr) x y.
Proof. exact result_whole. Qed.
Print Assumptions C72_whole.
(* degridding does not depend on row chunks: it is the degridding of all rows at once *)
Theorem C72_degrid : forall N gc wmin wmax d freq_chunks rows ncx ncy grid corr r c v, row_by_row N -> r < list_sum rows -> c < d_nchan d ->
  degrid N gc wmin wmax d freq_chunks rows ncx ncy grid corr r c = Ok v ->
  v = degridded N gc wmin wmax (d_nchan d) (d_freq d) (list_sum rows) (d_uvw d) (fun r c => d_flags d r c corr) (fun x y => grid x y corr) r c.
Proof. exact degrid_whole. Qed.
Print Assumptions C72_degrid.
(* it needs all frequencies in one chunk and the grid in one chunk *)
Theorem C72_degrid_accepted : forall N gc wmin wmax d freq_chunks rows ncx ncy grid corr r c,
  ((exists v, degrid N gc wmin wmax d freq_chunks rows ncx ncy grid corr r c = Ok v) <-> length freq_chunks = 1 /\ ncx = 1 /\ ncy = 1) /\
  (length freq_chunks <> 1 -> degrid N gc wmin wmax d freq_chunks rows ncx ncy grid corr r c = Raise ValueError) /\
  (length freq_chunks = 1 -> ncx <> 1 \/ ncy <> 1 -> degrid N gc wmin wmax d freq_chunks rows ncx ncy grid corr r c = Raise AssertionError).
Proof. exact degrid_accepted. Qed.
Print Assumptions C72_degrid_accepted.
(* with a library that makes new grids, tasks may be run again *)
Theorem C72_run_again : forall gridding again n s dsk sched g, adds_in gridding -> 0 < n -> (1 <= s)%Z -> graph n s = Ok dsk ->
  value (execute gridding false again dsk sched) (KSum 0 0) = Some g -> forall x y, g x y = csum n (fun rb => gridding rb rb (rb, 0) (rb, 0) None x y).
Proof. exact graph_again. Qed.
Print Assumptions C72_run_again.
(* with a library that adds in place, a task run again counts its rows twice *)
Theorem C72_run_again_in_place_refuted : exists gridding dsk sched g, adds_in gridding /\ graph 2 1 = Ok dsk /\
  value (execute gridding true true dsk sched) (KSum 0 0) = Some g /\ g 0 0 <> csum 2 (fun rb => gridding rb rb (rb, 0) (rb, 0) None 0 0).
Proof.
  exists (fun _ _ _ _ g x y => match g with Some g => cadd (g x y) (c1 : RC) | None => c1 end).
  exists [(KGrid 0 0, TGrid 0 0 (0, 0) (0, 0) None); (KGrid 1 0, TGrid 1 1 (1, 0) (1, 0) (Some (KGrid 0 0))); (KSum 0 0, TSum [KGrid 1 0])].
  exists [KGrid 0 0; KGrid 1 0; KGrid 1 0; KSum 0 0]. eexists. split; [intros b i v w g x y; reflexivity|]. split; [reflexivity|]. split; [reflexivity|]. intros H. apply (f_equal fst) in H. cbn in H. lra.
Qed.
Print Assumptions C72_run_again_in_place_refuted.
(* no streams and no row blocks are errors ... *)
Theorem C72_errors : forall n, graph n 0 = Raise ZeroDivision /\ forall s, (1 <= s)%Z -> graph 0 s = Raise ValueError.
Proof. exact graph_errors. Qed.
Print Assumptions C72_errors.
(* ... but with a negative number of streams nothing at all is gridded and the result is zero *)
Theorem C72_negative_streams_refuted : forall gridding in_place n s, (s < 0)%Z -> (1 - s < Z.of_nat n)%Z ->
  exists dsk g, graph n s = Ok dsk /\ all_blocks dsk = [] /\ value (execute gridding in_place false dsk [KSum 0 0]) (KSum 0 0) = Some g /\ forall x y, g x y = c0.
Proof. intros gridding in_place n s Hs Hn. eexists. eexists. split; [exact (negative_streams n s Hs Hn)|]. split; [reflexivity|]. split; [reflexivity|]. reflexivity. Qed.
Print Assumptions C72_negative_streams_refuted.
(* the configuration survives pickling, and different configurations have different tokens *)
Theorem C72_config : forall nx ny eps csx csy, let w := wrapper_init nx ny eps csx csy in
  wrapper_rebuild (wrapper_reduce w) = w /\ grid_config w = {| NiftyModel.nx := nx; NiftyModel.ny := ny; NiftyModel.eps := eps; NiftyModel.csx := csx; NiftyModel.csy := csy |} /\
  forall nx' ny' eps' csx' csy', wrapper_token (wrapper_init nx' ny' eps' csx' csy') = wrapper_token w -> wrapper_init nx' ny' eps' csx' csy' = w.
Proof. intros. split; [reflexivity|]. split; [reflexivity|]. unfold w, wrapper_token. cbn. intros *. intros E. injection E as -> -> -> -> ->. reflexivity. Qed.
Print Assumptions C72_config.

(* the exact library has the properties assumed *)
Example C72_library : accumulates exact /\ adds_rows exact /\ row_by_row exact.
Proof. exact (conj exact_accumulates (conj exact_adds exact_rows)). Qed.
(* five blocks in two streams, of three and of two blocks *)
Example C72_case : graph 5 2 = Ok [(KGrid 0 0, TGrid 0 0 (0, 0) (0, 0) None); (KGrid 1 0, TGrid 1 1 (1, 0) (1, 0) (Some (KGrid 0 0))); (KGrid 2 0, TGrid 2 2 (2, 0) (2, 0) (Some (KGrid 1 0)));
  (KGrid 3 0, TGrid 3 3 (3, 0) (3, 0) None); (KGrid 4 0, TGrid 4 4 (4, 0) (4, 0) (Some (KGrid 3 0))); (KSum 0 0, TSum [KGrid 2 0; KGrid 4 0])].
Proof. reflexivity. Qed.
(* a schedule that starts the second stream first and tries the sum too early *)
Example C72_schedule : forall N gc wmin wmax d corr in_place, exists g, grid_result N gc wmin wmax d [4] [3; 1; 2; 2; 5] (Some 2%Z) in_place corr (Ok g).
Proof.
  intros. eexists. eapply r_streams with (sched := [KGrid 3 0; KSum 0 0; KGrid 0 0; KGrid 2 0; KGrid 1 0; KGrid 4 0; KGrid 2 0; KSum 0 0]); [reflexivity|reflexivity|exact C72_case|].
  destruct in_place; reflexivity.
Qed.
