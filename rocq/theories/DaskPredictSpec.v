(* Specification vocabulary for C28. *)
From Coq Require Import Permutation.
From Verif Require Import Prelude CRing PredictModel PredictSpec DaskPredictModel.
Open Scope nat_scope.

Section DaskSpec.
  Context {K : cops}.

  (* The chunking covers the axes; row and time chunks correspond: the time indices of row
     chunk rb start at the first time of time chunk rb (documented in dask_predict.py:325-333). *)
  Record chunks_ok (ch : chunking) (nsrc nchan : nat) (a : predict_in K) : Prop := {
    co_src : list_sum (ck_src ch) = nsrc;
    co_src_some : ck_src ch <> [];
    co_row : list_sum (ck_row ch) = p_nrow a;
    co_chan : list_sum (ck_chan ch) = nchan;
    co_row_pos : forall rb, rb < length (ck_row ch) -> 0 < nth rb (ck_row ch) 0;
    co_aligned : forall tmin, is_min (p_nrow a) (p_time a) tmin ->
        forall rb, rb < length (ck_row ch) ->
        is_min (nth rb (ck_row ch) 0) (blk ch rb (p_time a)) (tmin + Z.of_nat (chunk_off (ck_time ch) rb))
  }.

  (* the key of an output block: row and channel block, block 0 of the correlations *)
  Definition out_key (a : predict_in K) (rb cb : nat) : dkey :=
    KFinal ([rb; cb] ++ repeat 0 (ncorr_dims a)).

  (* v is a possible value of the summed coherencies of block (rb, cb): computed by the
     stream reduction under some schedule, or by some reduction tree over the source blocks *)
  Inductive reduction_value (ch : chunking) (a : predict_in K) (rb cb : nat) : @dval K -> Prop :=
  | by_stream dsk sched v : linear_graph ch a = Ok dsk ->
      execute predict_func dsk (input_store ch a) sched (out_key a rb cb) = Some v ->
      reduction_value ch a rb cb v
  | by_tree t v : Permutation (leaves t) (seq 0 (length (ck_src ch))) ->
      tree_sum ch a rb cb t = Ok v -> reduction_value ch a rb cb (VVis v)
  | by_failed_tree t e : Permutation (leaves t) (seq 0 (length (ck_src ch))) ->
      tree_sum ch a rb cb t = Raise e -> reduction_value ch a rb cb (VErr e).

  (* out is block (rb, cb) of the whole result *)
  Definition block_equals (full : bool) (ncorr : nat) (ch : chunking) (rb cb : nat) (whole out : vis_arr K) : Prop :=
    v_row out = nth rb (ck_row ch) 0 /\ v_chan out = nth cb (ck_chan ch) 0 /\ v_corr out = ncorr /\
    forall r f, r < nth rb (ck_row ch) 0 -> f < nth cb (ck_chan ch) 0 ->
      jeq full ncorr (v_at out r f)
          (v_at whole (chunk_off (ck_row ch) rb + r) (chunk_off (ck_chan ch) cb + f)).
End DaskSpec.

(* the chunkings that predict_vis of dask accepts: the two terms of a pair are chunked the same,
   the antenna axis is a single chunk and there are as many time chunks as row chunks *)
Definition one_chunk (l : list nat) : Prop := list_sum l = hd 0 l.
Definition chunks_accepted (rows : list nat) (ant tim : nat) (d1 d2 : option (list (list nat))) : Prop :=
  forall c1 c2, d1 = Some c1 -> d2 = Some c2 ->
    c1 = c2 /\ one_chunk (nth ant c1 []) /\ length (nth tim c1 []) = length rows.
