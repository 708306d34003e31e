(* C95: the CUDA conversion of polarisations has the CPU's result, for every order of its groups of threads *)
From Coq Require Import String Permutation.
From Verif Require Import Prelude CRing CohModel CohSpec CohProofs2 CohProps DaskRimeModel CudaPredictModel CudaRimeModel CudaCohModel CudaCohSpec CudaCohProofs3 CudaCohProofs4.
Open Scope nat_scope.
Open Scope string_scope.

(* Whatever the order of the groups, the initial contents of registers and output: if the CUDA conversion returns, the CPU
   conversion of the same arguments returns, with the same shape and the same elements. *)
Theorem C95_same_as_cpu : forall {K : cops}, claws K -> forall half : K, forall ty und garbage order (a : ndarr K) is os out,
  any_order order -> (ty = TReal -> forall idx, inside idx (nd_shape a) -> is_real (nd_at a idx)) ->
  cuda_convert half ty und garbage order a is os = Ok out ->
  forall g, exists cpu, convert half g a is os = Ok cpu /\ nd_shape out = nd_shape cpu /\
    forall idx, inside idx (nd_shape cpu) -> nd_at out idx = nd_at cpu idx.
Proof. intros K L half. exact (cuda_same L half). Qed.
(* It returns only for 1, 2, 4 or 8 elements, from real arrays to correlations or from complex arrays to Stokes parameters. *)
Theorem C95_elements : forall {K : cops} (half : K) ty und garbage order (a : ndarr K) is os out,
  cuda_convert half ty und garbage order a is os = Ok out ->
  exists lead di do_, nd_shape a = (lead ++ di)%list /\ rect (boxed os) do_ /\ prodn di = prodn do_ /\ In (prodn do_) [1; 2; 4; 8] /\
    ((ty = TReal /\ only (boxed os) CORRELATIONS) \/ (ty = TComplex /\ only (boxed os) STOKES)).
Proof. intros K half. exact (cuda_elements half). Qed.
(* What it makes of a conversion of regular schemas that the CPU accepts. *)
Theorem C95_verdict : forall {K : cops}, claws K -> forall half : K,
  forall ty und garbage order (a : ndarr K) is os fs di do_,
  rect (boxed is) di -> distinct (boxed is) -> rect (boxed os) do_ -> distinct (boxed os) -> nd_shape a = (fs ++ di)%list ->
  forall g cpu, convert half g a is os = Ok cpu ->
  (some_of (boxed os) STOKES -> some_of (boxed os) CORRELATIONS -> cuda_convert half ty und garbage order a is os = Raise ValueError) /\
  (prodn di <> prodn do_ -> cuda_convert half ty und garbage order a is os = Raise ValueError) /\
  (ty = TUnmapped -> cuda_convert half ty und garbage order a is os = Raise ValueError) /\
  ((only (boxed os) STOKES \/ only (boxed os) CORRELATIONS) -> prodn di = prodn do_ -> ty <> TUnmapped ->
     (~ power_of_two (prodn di) -> cuda_convert half ty und garbage order a is os = Raise template_exn) /\
     (power_of_two (prodn di) ->
        (ty = TReal /\ only (boxed os) STOKES) \/ (ty = TComplex /\ only (boxed os) CORRELATIONS) ->
        cuda_convert half ty und garbage order a is os = Raise compile_exn) /\
     (power_of_two (prodn di) ->
        (ty = TReal /\ only (boxed os) CORRELATIONS) \/ (ty = TComplex /\ only (boxed os) STOKES) ->
        exists out, cuda_convert half ty und garbage order a is os = Ok out)).
Proof. intros K L half. exact (verdict L half). Qed.
(* So "it accepts what the CPU accepts" is false: three elements, whatever the data type. *)
Theorem C95_accepts_refuted : forall {K : cops} (half : K), exists is os (a : ndarr K),
  (forall g, exists cpu, convert half g a is os = Ok cpu) /\
  forall ty und garbage order, exists e, cuda_convert half ty und garbage order a is os = Raise e.
Proof.
  intros K half. exists (SSeq [SStr "I"; SStr "Q"; SStr "V"]), (SSeq [SStr "XX"; SStr "YY"; SStr "RR"]),
    {| nd_shape := [2; 3]; nd_at := fun _ => cx0 |}. split.
  - intros g. eexists. reflexivity.
  - intros ty und garbage order. destruct ty; eexists; reflexivity.
Qed.
(* An output that is not one of the twelve names raises ValueError, one whose inputs are not there MissingConversionInputs. *)
Theorem C95_unknown_output : forall {K : cops}, claws K -> forall half : K,
  forall ty und garbage order (a : ndarr K) is os fs di do_,
  rect (boxed is) di -> distinct (boxed is) -> rect (boxed os) do_ -> distinct (boxed os) -> nd_shape a = (fs ++ di)%list ->
  ~ only (boxed os) (STOKES ++ CORRELATIONS)%list ->
  (forall idx s, at_ (boxed os) idx s -> In s (STOKES ++ CORRELATIONS)%list -> producible (boxed is) s) ->
  cuda_convert half ty und garbage order a is os = Raise ValueError.
Proof. intros K L half. exact (unknown_output L half). Qed.
Theorem C95_missing_inputs : forall {K : cops}, claws K -> forall half : K,
  forall ty und garbage order (a : ndarr K) is os fs di do_,
  rect (boxed is) di -> distinct (boxed is) -> rect (boxed os) do_ -> distinct (boxed os) -> nd_shape a = (fs ++ di)%list ->
  only (boxed os) (STOKES ++ CORRELATIONS)%list -> (exists idx s, at_ (boxed os) idx s /\ ~ producible (boxed is) s) ->
  cuda_convert half ty und garbage order a is os = Raise MissingConversion.
Proof. intros K L half. exact (missing_inputs L half). Qed.

Print Assumptions C95_same_as_cpu.
Print Assumptions C95_elements.
Print Assumptions C95_verdict.
Print Assumptions C95_accepts_refuted.
Print Assumptions C95_unknown_output.
Print Assumptions C95_missing_inputs.

(* ---------- cases ---------- *)
Definition gz (z : Z) : GI := {| g_re := z; g_im := 0 |}.
(* five sources: the second group of four lanes has a part of its reads outside the array *)
Definition five : ndarr GI := {| nd_shape := [5; 4];
  nd_at := fun idx => (gz (Z.of_nat (100 * nth 0 idx 0 + nth 1 idx 0)), c0) |}.
Definition backwards (n : nat) : list nat := rev (seq 0 n).
Example ex_any_order : any_order backwards.
Proof. intros n. symmetry. apply Permutation_rev. Qed.
Example ex_real : forall idx, inside idx (nd_shape five) -> is_real (nd_at five idx).
Proof. reflexivity. Qed.
Example ex_values :
  match cuda_convert (c0 : GI) TReal (fun _ => (fun _ => cx0, fun _ => cx0)) (fun _ => cx0) (fun _ => [0; 1; 2; 3; 70]) five flat_stokes square_linear with
  | Ok o => nd_shape o = [5; 2; 2] /\
      map (nd_at o) [[0; 0; 0]; [4; 0; 0]; [4; 0; 1]; [3; 1; 0]; [2; 1; 1]] =
      [(gz 1, c0); (gz 801, c0); (gz 402, gz 403); (gz 302, gz (-303)); (gz (-1), c0)]
  | Raise _ => False
  end.
Proof. vm_compute. repeat split; reflexivity. Qed.

Example ex_accepted : forall und garbage, exists out, cuda_convert (c0 : GI) TReal und garbage backwards five flat_stokes square_linear = Ok out.
Proof.
  intros und garbage.
  assert (C : exists cpu, convert (c0 : GI) (fun _ => cx0) five flat_stokes square_linear = Ok cpu) by (eexists; reflexivity).
  destruct C as (cpu & C).
  destruct (C95_verdict GI_laws (c0 : GI) TReal und garbage backwards five flat_stokes square_linear [5] [4] [2; 2]
    ex_rect_flat ex_distinct_flat ex_rect_square ex_distinct_square eq_refl _ _ C) as (_ & _ & _ & V).
  assert (O : only (boxed square_linear) CORRELATIONS).
  { intros i s H. apply ex_names_square in H. apply in_or_app. now left. }
  apply V; auto; [discriminate|now exists 2].
Qed.
(* names that are not producible, not known, or of both kinds *)
Definition pair_schema (p q : string) := SSeq [SStr p; SStr q].
Lemma pair_rect p q : rect (boxed (pair_schema p q)) [2].
Proof. eexists. split; [reflexivity|]. split; [reflexivity|]. split; [lia|]. repeat constructor; eexists; reflexivity. Qed.
Definition two_reals : ndarr GI := {| nd_shape := [3; 2]; nd_at := fun _ => cx0 |}.
Example ex_missing : forall ty und garbage order,
  cuda_convert (c0 : GI) ty und garbage order two_reals (pair_schema "I" "Q") (pair_schema "XX" "XY") = Raise MissingConversion.
Proof.
  intros. apply (C95_missing_inputs GI_laws) with (fs := [3]) (di := [2]) (do_ := [2]).
  1,3: apply pair_rect. 1,2: apply accepted_distinct; do 2 eexists; vm_compute; reflexivity. { reflexivity. }
  - assert (E : element_indices_and_shape (pair_schema "XX" "XY") = Ok ([("XX", [0]); ("XY", [1])], [2])) by reflexivity.
    destruct (C51_schema_positions _ _ _ E) as (D & _). intros i s Hs. apply D in Hs. cbn in Hs.
    destruct Hs as [[= <- _]|[[= <- _]|[]]]; cbn; tauto.
  - exists [1], "XY". split; [exists (SStr "XY"); split; reflexivity|].
    intros (pairs & p & q & R & P & (i & A) & (j & B)). cbn in R.
    repeat (destruct R as [R|R]; [first [discriminate R|injection R as <-]|]); [|destruct R].
    destruct P as [P|[]]. injection P as <- <-.
    assert (E : element_indices_and_shape (pair_schema "I" "Q") = Ok ([("I", [0]); ("Q", [1])], [2])) by reflexivity.
    destruct (C51_schema_positions _ _ _ E) as (D & _). apply D in A. cbn in A. intuition discriminate.
Qed.
Example ex_unknown : forall ty und garbage order,
  cuda_convert (c0 : GI) ty und garbage order two_reals (pair_schema "I" "Q") (pair_schema "XX" "ZZ") = Raise ValueError.
Proof.
  intros. apply (C95_unknown_output GI_laws) with (fs := [3]) (di := [2]) (do_ := [2]).
  1,3: apply pair_rect. 1,2: apply accepted_distinct; do 2 eexists; vm_compute; reflexivity. { reflexivity. }
  - intros O. assert (H : In "ZZ" (STOKES ++ CORRELATIONS)%list) by (apply (O [1]); exists (SStr "ZZ"); split; reflexivity).
    cbn in H. intuition discriminate.
  - assert (E : element_indices_and_shape (pair_schema "XX" "ZZ") = Ok ([("XX", [0]); ("ZZ", [1])], [2])) by reflexivity.
    destruct (C51_schema_positions _ _ _ E) as (D & _). intros i s Hs. apply D in Hs. cbn in Hs.
    destruct Hs as [[= <- _]|[[= <- _]|[]]]; intros Hk; [|cbn in Hk; intuition discriminate].
    exists [("I", "Q")], "I", "Q". split; [now left|]. split; [now left|].
    split; [exists [0]; exists (SStr "I")|exists [1]; exists (SStr "Q")]; split; reflexivity.
Qed.
(* An empty output schema: there is no first element whose type to use. *)
Theorem C95_no_outputs : forall {K : cops} (half : K) ty und garbage order (a : ndarr K) is fs di,
  rect (boxed is) di -> distinct (boxed is) -> nd_shape a = (fs ++ di)%list ->
  cuda_convert half ty und garbage order a is (SSeq []) = Raise IndexError.
Proof.
  intros K half ty und garbage order a is fs di Ri Di Ha. destruct (rect_accept is di Ri Di) as (ri & Ei & Dri).
  unfold cuda_convert, generate_kernel, gpu_setup. rewrite Ei. cbn [bind].
  assert (Sh : list_eqb (lastn (List.length di) (nd_shape a)) di = true) by (apply list_eqb_eq; rewrite Ha; apply lastn_app).
  change (element_indices_and_shape (SSeq [])) with (@Ok (list (string * list nat) * list nat) ([], [0])). cbn [bind]. rewrite Sh. reflexivity.
Qed.
Print Assumptions C95_no_outputs.
