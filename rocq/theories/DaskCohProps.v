(* C91: the dask wrapper of coherency conversion (africanus/model/coherency/dask.py). *)
From Coq Require Import String.
From Verif Require Import Prelude CRing CohModel CohSpec CohProofs2 CohProps DaskRimeModel DaskRimeSpec DaskCohProofs.
Close Scope string_scope.
Open Scope nat_scope.

(* However the leading dimensions are chunked, each element is that of the conversion of the whole array, if the
   correlations of an element are in one chunk. *)
Theorem C91_convert : forall (K : cops) (L : claws K) (half : K) g g' (free : list (list nat)) (a : ndarr K) is os di do_,
  rect (boxed is) di -> distinct (boxed is) -> rect (boxed os) do_ -> distinct (boxed os) ->
  nd_shape a = (map (@list_sum) free ++ di)%list ->
  (forall idx s, at_ (boxed os) idx s -> exists deps p q fn, assoc s (stokes_conv half) = Some deps /\ first_pair (boxed is) deps p q fn) ->
  exists whole part, convert half g a is os = Ok whole /\
    dask_convert half g' (free ++ map (fun d => [d]) di) a is os = Ok part /\
    forall f i, inside f (map (@list_sum) free) -> inside i do_ -> part (f ++ i)%list = Ok (nd_at whole (f ++ i)%list).
Proof. exact @dask_convert_eq. Qed.

(* Arguments the conversion rejects while it is being set up are rejected by both, when the graph is made. *)
Theorem C91_rejects : forall (K : cops) (half : K) g g' chunks (a : ndarr K) is os e, convert_setup half a is os = Raise e ->
  convert half g a is os = Raise e /\ dask_convert half g' chunks a is os = Raise e.
Proof. exact @dask_convert_setup_raises. Qed.

(* Correlations in two chunks: I, Q, U, V cut in the middle.  XX, which is I + Q, silently becomes I + Q + U + V. *)
Theorem C91_cut_refuted : forall (half : GI) (i q u v : gint) g,
  exists whole part, convert half g (four i q u v) iquv (SSeq [SStr "XX"]) = Ok whole /\
    dask_convert half g [[2; 2]] (four i q u v) iquv (SSeq [SStr "XX"]) = Ok part /\
    nd_at whole [0] = ((@cadd GI i q, c0) : cx GI) /\
    part [0] = Ok ((@cadd GI (@cadd GI i q) (@cadd GI u v), c0) : cx GI).
Proof. exact convert_chunked_sums. Qed.
(* XY, which is made of U and V, raises IndexError. *)
Theorem C91_cut_raises : forall (half : GI) (i q u v : gint) g,
  exists whole part, convert half g (four i q u v) iquv (SSeq [SStr "XY"]) = Ok whole /\
    dask_convert half g [[2; 2]] (four i q u v) iquv (SSeq [SStr "XY"]) = Ok part /\ part [0] = Raise IndexError.
Proof. exact convert_chunked_raises. Qed.

Print Assumptions C91_convert.
Print Assumptions C91_rejects.
Print Assumptions C91_cut_refuted.
Print Assumptions C91_cut_raises.

(* five rows in chunks of 2 and 3, a 2 by 2 matrix of correlations to I and Q: the hypotheses of C91_convert hold *)
Definition iq : sch := SSeq [SStr "I"; SStr "Q"].
Definition rows5 : ndarr GI := {| nd_shape := [5; 2; 2]; nd_at := fun k => ((Gi (Z.of_nat (list_sum k)) 0, Gi 0 0) : cx GI) |}.
Example C91_case : exists whole part, convert (c1 : GI) (fun _ => cx0) rows5 square_linear iq = Ok whole /\
  dask_convert (c1 : GI) (fun _ => cx0) [[2; 3]; [2]; [2]] rows5 square_linear iq = Ok part /\
  forall f i, inside f [5] -> inside i [2] -> part (f ++ i)%list = Ok (nd_at whole (f ++ i)%list).
Proof.
  apply (C91_convert GI GI_laws (c1 : GI) (fun _ => cx0) (fun _ => cx0) [[2; 3]] rows5 square_linear iq [2; 2] [2]).
  - exact ex_rect_square.
  - exact ex_distinct_square.
  - eexists. split; [reflexivity|]. split; [reflexivity|]. split; [lia|]. repeat constructor; eexists; reflexivity.
  - apply accepted_distinct. eexists. eexists. vm_compute. reflexivity.
  - reflexivity.
  - destruct (convert (c1 : GI) (fun _ => cx0) rows5 square_linear iq) as [out|e] eqn:E; [|vm_compute in E; discriminate].
    apply (convert_needs _ _ _ _ _ _ E).
Qed.
