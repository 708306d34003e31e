(* C50, C51, C76: Stokes conversion, schemas and polarisation codes *)
From Coq Require Import String.
From Verif Require Import Prelude CRing CField CohModel CohSpec CohProofs CohProofs2 CohProofs3.
From Coq Require Import QArith Qcanon.
Close Scope Qc_scope. Close Scope Q_scope.
Open Scope nat_scope.
Open Scope string_scope.
Open Scope list_scope.

(* ---------- C50 ---------- *)
Theorem C50_stokes_to_linear : forall {K : cops}, claws K -> forall half : K, forall is os fs di do_ (a : ndarr K) g,
  rect (boxed is) di -> distinct (boxed is) -> rect (boxed os) do_ -> distinct (boxed os) ->
  nd_shape a = fs ++ di -> all_of (boxed is) STOKES -> only (boxed os) LINEAR ->
  exists out, convert half g a is os = Ok out /\ nd_shape out = fs ++ do_ /\
    forall f i q u v, carries a f (boxed is) (stokes_of i q u v) -> carries out f (boxed os) (linear_of i q u v).
Proof. intros K L half. exact (stokes_to_linear L half). Qed.
Theorem C50_stokes_to_circular : forall {K : cops}, claws K -> forall half : K, forall is os fs di do_ (a : ndarr K) g,
  rect (boxed is) di -> distinct (boxed is) -> rect (boxed os) do_ -> distinct (boxed os) ->
  nd_shape a = fs ++ di -> all_of (boxed is) STOKES -> only (boxed os) CIRCULAR ->
  exists out, convert half g a is os = Ok out /\ nd_shape out = fs ++ do_ /\
    forall f i q u v, carries a f (boxed is) (stokes_of i q u v) -> carries out f (boxed os) (circular_of i q u v).
Proof. intros K L half. exact (stokes_to_circular L half). Qed.
Theorem C50_linear_to_stokes : forall {K : cops}, claws K -> forall half : K, cadd half half = c1 ->
  forall is os fs di do_ (a : ndarr K) g,
  rect (boxed is) di -> distinct (boxed is) -> rect (boxed os) do_ -> distinct (boxed os) ->
  nd_shape a = fs ++ di -> only (boxed os) STOKES -> all_of (boxed is) LINEAR ->
  exists out, convert half g a is os = Ok out /\ nd_shape out = fs ++ do_ /\
    forall f i q u v, carries a f (boxed is) (linear_of i q u v) -> carries out f (boxed os) (stokes_of i q u v).
Proof. intros K L half Hh. exact (linear_to_stokes L half Hh). Qed.
Theorem C50_circular_to_stokes : forall {K : cops}, claws K -> forall half : K, cadd half half = c1 ->
  forall is os fs di do_ (a : ndarr K) g,
  rect (boxed is) di -> distinct (boxed is) -> rect (boxed os) do_ -> distinct (boxed os) ->
  nd_shape a = fs ++ di -> only (boxed os) STOKES -> all_of (boxed is) CIRCULAR -> only (boxed is) CIRCULAR ->
  exists out, convert half g a is os = Ok out /\ nd_shape out = fs ++ do_ /\
    forall f i q u v, carries a f (boxed is) (circular_of i q u v) -> carries out f (boxed os) (stokes_of i q u v).
Proof. intros K L half Hh. exact (circular_to_stokes L half Hh). Qed.

Theorem C50_linear_roundtrip : forall {K : cops}, claws K -> forall half : K, cadd half half = c1 ->
  forall is os fs di do_ (a : ndarr K) g g',
  rect (boxed is) di -> distinct (boxed is) -> rect (boxed os) do_ -> distinct (boxed os) -> nd_shape a = fs ++ di ->
  all_of (boxed is) STOKES -> only (boxed is) STOKES -> all_of (boxed os) LINEAR -> only (boxed os) LINEAR ->
  (forall idx, inside idx (nd_shape a) -> is_real (nd_at a idx)) ->
  exists c b, convert half g a is os = Ok c /\ convert half g' c os is = Ok b /\ nd_shape b = nd_shape a /\
    forall idx, inside idx (nd_shape a) -> nd_at b idx = nd_at a idx.
Proof. intros K L half Hh. exact (stokes_linear_stokes L half Hh). Qed.
Theorem C50_circular_roundtrip : forall {K : cops}, claws K -> forall half : K, cadd half half = c1 ->
  forall is os fs di do_ (a : ndarr K) g g',
  rect (boxed is) di -> distinct (boxed is) -> rect (boxed os) do_ -> distinct (boxed os) -> nd_shape a = fs ++ di ->
  all_of (boxed is) STOKES -> only (boxed is) STOKES -> all_of (boxed os) CIRCULAR -> only (boxed os) CIRCULAR ->
  (forall idx, inside idx (nd_shape a) -> is_real (nd_at a idx)) ->
  exists c b, convert half g a is os = Ok c /\ convert half g' c os is = Ok b /\ nd_shape b = nd_shape a /\
    forall idx, inside idx (nd_shape a) -> nd_at b idx = nd_at a idx.
Proof. intros K L half Hh. exact (stokes_circular_stokes L half Hh). Qed.
Theorem C50_linear_roundtrip_back : forall {K : cops}, claws K -> forall half : K, cadd half half = c1 ->
  forall is os fs di do_ (a : ndarr K) g g',
  rect (boxed is) di -> distinct (boxed is) -> rect (boxed os) do_ -> distinct (boxed os) -> nd_shape a = fs ++ di ->
  all_of (boxed is) LINEAR -> only (boxed is) LINEAR -> all_of (boxed os) STOKES -> only (boxed os) STOKES ->
  (forall f, inside f fs -> hermitian a f (boxed is) "XX" "XY" "YX" "YY") ->
  exists c b, convert half g a is os = Ok c /\ convert half g' c os is = Ok b /\ nd_shape b = nd_shape a /\
    forall idx, inside idx (nd_shape a) -> nd_at b idx = nd_at a idx.
Proof. intros K L half Hh. exact (linear_stokes_linear L half Hh). Qed.
Theorem C50_circular_roundtrip_back : forall {K : cops}, claws K -> forall half : K, cadd half half = c1 ->
  forall is os fs di do_ (a : ndarr K) g g',
  rect (boxed is) di -> distinct (boxed is) -> rect (boxed os) do_ -> distinct (boxed os) -> nd_shape a = fs ++ di ->
  all_of (boxed is) CIRCULAR -> only (boxed is) CIRCULAR -> all_of (boxed os) STOKES -> only (boxed os) STOKES ->
  (forall f, inside f fs -> hermitian a f (boxed is) "RR" "RL" "LR" "LL") ->
  exists c b, convert half g a is os = Ok c /\ convert half g' c os is = Ok b /\ nd_shape b = nd_shape a /\
    forall idx, inside idx (nd_shape a) -> nd_at b idx = nd_at a idx.
Proof. intros K L half Hh. exact (circular_stokes_circular L half Hh). Qed.

(* ---------- C51 ---------- *)
Theorem C51_schema_accepted : forall t,
  (exists r sh, element_indices_and_shape t = Ok (r, sh)) <->
  named (boxed t) /\ distinct (boxed t) /\ consistent (boxed t).
Proof.
  intros t. split.
  - intros (r & sh & E). exact (proj2 (element_indices_ok t r sh E)).
  - intros (A & B & C). exact (element_indices_total t A B C).
Qed.
Theorem C51_schema_positions : forall t r sh, element_indices_and_shape t = Ok (r, sh) -> described (boxed t) r sh.
Proof. intros t r sh E. exact (proj1 (element_indices_ok t r sh E)). Qed.
Theorem C51_schema_shape : forall t dims, rect (boxed t) dims -> distinct (boxed t) ->
  exists r, element_indices_and_shape t = Ok (r, dims).
Proof. intros t dims R D. destruct (rect_accept t dims R D) as (r & E & _). eauto. Qed.
Theorem C51_convert : forall {K : cops} (half : K) g (a : ndarr K) is os fs di do_,
  rect (boxed is) di -> distinct (boxed is) -> rect (boxed os) do_ -> distinct (boxed os) ->
  nd_shape a = fs ++ di ->
  (forall idx s, at_ (boxed os) idx s ->
     exists deps p q fn, assoc s (stokes_conv half) = Some deps /\ first_pair (boxed is) deps p q fn) ->
  exists out, convert half g a is os = Ok out /\ nd_shape out = fs ++ do_ /\
    forall f idx s, at_ (boxed os) idx s ->
    exists deps p q fn i j, assoc s (stokes_conv half) = Some deps /\ first_pair (boxed is) deps p q fn /\
      at_ (boxed is) i p /\ at_ (boxed is) j q /\
      nd_at out (f ++ idx) = fn (nd_at a (f ++ i)) (nd_at a (f ++ j)).
Proof. intros K. exact (@convert_ok K). Qed.
Theorem C51_convert_needs : forall {K : cops} (half : K) g (a out : ndarr K) is os, convert half g a is os = Ok out ->
  named (boxed is) /\ distinct (boxed is) /\ consistent (boxed is) /\
  named (boxed os) /\ distinct (boxed os) /\ consistent (boxed os) /\
  (exists fs sh r, described (boxed is) r sh /\ nd_shape a = fs ++ sh) /\
  (forall idx s, at_ (boxed os) idx s ->
     exists deps p q fn, assoc s (stokes_conv half) = Some deps /\ first_pair (boxed is) deps p q fn).
Proof. intros K. exact (@convert_needs K). Qed.
(* an output schema naming no polarisation is refused *)
Theorem C51_convert_nothing : forall {K : cops} (half : K) g (a : ndarr K) is os,
  named (boxed is) -> distinct (boxed is) -> consistent (boxed is) -> named (boxed os) -> consistent (boxed os) ->
  (forall idx s, ~ at_ (boxed os) idx s) -> convert half g a is os = Raise ValueError.
Proof. intros K. exact (@convert_nothing K). Qed.
Theorem C51_pointwise : forall {K : cops} (half : K) g g' (a a' : ndarr K) is os fs fs' di do_ (rho : list nat -> list nat),
  rect (boxed is) di -> distinct (boxed is) -> rect (boxed os) do_ -> distinct (boxed os) ->
  nd_shape a = fs ++ di -> nd_shape a' = fs' ++ di ->
  (forall idx s, at_ (boxed os) idx s ->
     exists deps p q fn, assoc s (stokes_conv half) = Some deps /\ first_pair (boxed is) deps p q fn) ->
  (forall f i, inside f fs' -> inside i di -> nd_at a' (f ++ i) = nd_at a (rho f ++ i)) ->
  exists out out', convert half g a is os = Ok out /\ convert half g' a' is os = Ok out' /\
    nd_shape out = fs ++ do_ /\ nd_shape out' = fs' ++ do_ /\
    forall f i, inside f fs' -> inside i do_ -> nd_at out' (f ++ i) = nd_at out (rho f ++ i).
Proof. intros K. exact (@convert_pointwise K). Qed.

(* ---------- C76 ---------- *)
Theorem C76_type_to_id : forall s n, type_id s = Some n <-> In (s, n) casacore_codes.
Proof. exact type_id_iff. Qed.
Theorem C76_id_to_type : forall z s, id_type z = Some s <-> exists n, z = Z.of_nat n /\ In (s, n) casacore_codes.
Proof. exact id_type_iff. Qed.
Theorem C76_inverse : forall s n, type_id s = Some n <-> id_type (Z.of_nat n) = Some s.
Proof.
  intros s n. rewrite C76_type_to_id, C76_id_to_type. split; [eauto|].
  intros (m & E & H). apply Nat2Z.inj in E. now subst.
Qed.

(* ---------- concrete cases ---------- *)
Canonical GQc.
Definition qh : GQc := {| q_re := Q2Qc (1 # 2); q_im := Q2Qc 0 |}.
Definition q_ (n : Z) : GQc := {| q_re := Q2Qc (inject_Z n); q_im := Q2Qc 0 |}.
Example ex_half : cadd qh qh = c1.
Proof. cbn [cadd GQc c1 qh q_re q_im]. f_equal; apply Qc_is_canon; reflexivity. Qed.

Definition flat_stokes := SSeq [SStr "I"; SInt 2; SStr "U"; SStr "V"].
Definition square_linear := SSeq [SSeq [SInt 9; SStr "XY"]; SSeq [SStr "YX"; SStr "YY"]].

Example ex_rect_flat : rect (boxed flat_stokes) [4].
Proof.
  eexists. split; [reflexivity|]. split; [reflexivity|]. split; [lia|]. repeat constructor; eexists; reflexivity.
Qed.
Example ex_rect_square : rect (boxed square_linear) [2; 2].
Proof.
  eexists. split; [reflexivity|]. split; [reflexivity|]. split; [lia|]. repeat constructor;
  (eexists; split; [reflexivity|]; split; [reflexivity|]; split; [lia|]; repeat constructor; eexists; reflexivity).
Qed.
(* acceptance implies distinctness, so computing the traversal settles it *)
Lemma accepted_distinct t : (exists r sh, element_indices_and_shape t = Ok (r, sh)) -> distinct (boxed t).
Proof. intros H. apply C51_schema_accepted in H. tauto. Qed.
Example ex_distinct_flat : distinct (boxed flat_stokes).
Proof. apply accepted_distinct. eexists. eexists. vm_compute. reflexivity. Qed.
Example ex_distinct_square : distinct (boxed square_linear).
Proof. apply accepted_distinct. eexists. eexists. vm_compute. reflexivity. Qed.
Lemma names_of t r sh : element_indices_and_shape t = Ok (r, sh) -> forall ns,
  (forall s, In s (map fst r) -> In s ns) -> (forall s, In s ns -> In s (map fst r)) -> all_of (boxed t) ns /\ only (boxed t) ns.
Proof.
  intros E ns A B. destruct (C51_schema_positions _ _ _ E) as (D & _). split.
  - intros s Hs. apply B in Hs. apply in_map_iff in Hs. destruct Hs as ([s0 i] & <- & Hi). exists i. now apply D.
  - intros i s Hs. apply D in Hs. apply A. now apply (in_map fst) in Hs.
Qed.
Example ex_names_flat : all_of (boxed flat_stokes) STOKES /\ only (boxed flat_stokes) STOKES.
Proof. eapply names_of; [vm_compute; reflexivity | cbn; tauto | cbn; tauto]. Qed.
Example ex_names_square : all_of (boxed square_linear) LINEAR /\ only (boxed square_linear) LINEAR.
Proof. eapply names_of; [vm_compute; reflexivity | cbn; tauto | cbn; tauto]. Qed.

(* two rows of Stokes parameters *)
Definition ex_stokes : ndarr GQc := {| nd_shape := [2; 4];
  nd_at := fun idx => match idx with
                      | [r; c] => (q_ (nth (4 * r + c) [10; 1; 2; 3; 20; 4; 5; 6]%Z 0%Z), c0)
                      | _ => cx0
                      end |}.
Example ex_roundtrip : exists c b, convert qh (fun _ => cx0) ex_stokes flat_stokes square_linear = Ok c /\
  convert qh (fun _ => cx0) c square_linear flat_stokes = Ok b /\ nd_shape b = nd_shape ex_stokes /\
  forall idx, inside idx (nd_shape ex_stokes) -> nd_at b idx = nd_at ex_stokes idx.
Proof.
  apply (C50_linear_roundtrip GQc_laws qh ex_half) with (fs := [2]) (di := [4]) (do_ := [2; 2]).
  - exact ex_rect_flat.
  - exact ex_distinct_flat.
  - exact ex_rect_square.
  - exact ex_distinct_square.
  - reflexivity.
  - apply ex_names_flat.
  - apply ex_names_flat.
  - apply ex_names_square.
  - apply ex_names_square.
  - intros idx H. inversion H as [|x y l m A B]; subst. inversion B as [|x' y' l' m' A' B']; subst. inversion B'; subst. reflexivity.
Qed.
Definition re_list (a : ndarr GQc) (l : list (list nat)) : list (Q * Q) :=
  map (fun i => (this (q_re (fst (nd_at a i))), this (q_re (snd (nd_at a i))))) l.
Example ex_linear_values :
  match convert qh (fun _ => cx0) ex_stokes flat_stokes square_linear with
  | Ok c => nd_shape c = [2; 2; 2] /\
      re_list c [[0; 0; 0]; [0; 0; 1]; [0; 1; 0]; [0; 1; 1]; [1; 0; 0]]
      = [(11, 0); (2, 3); (2, -3); (9, 0); (24, 0)]%Q
  | Raise _ => False
  end.
Proof. vm_compute. split; reflexivity. Qed.

(* without Hermitian symmetry the round trip through Stokes loses information: XX = 1j *)
Theorem C50_non_hermitian_refuted : exists (a : ndarr GQc), nd_shape a = [4] /\
  match convert qh (fun _ => cx0) a (SSeq [SStr "XX"; SStr "XY"; SStr "YX"; SStr "YY"]) flat_stokes with
  | Ok c => match convert qh (fun _ => cx0) c flat_stokes (SSeq [SStr "XX"; SStr "XY"; SStr "YX"; SStr "YY"]) with
            | Ok b => re_list b [[0]] <> re_list a [[0]]
            | Raise _ => False
            end
  | Raise _ => False
  end.
Proof.
  exists {| nd_shape := [4]; nd_at := fun i => match i with [0] => (q_ 0, q_ 1) | _ => cx0 end |}.
  split; [reflexivity|]. vm_compute. intros H. discriminate H.
Qed.
(* an unknown output name is reported as ValueError only when a known one came first *)
Theorem C51_unknown_output_refuted : exists (a : ndarr GQc),
  convert qh (fun _ => cx0) a flat_stokes (SSeq [SStr "XX"; SStr "foo"]) = Raise ValueError /\
  convert qh (fun _ => cx0) a flat_stokes (SSeq [SStr "foo"; SStr "XX"]) = Raise NameError.
Proof. exists ex_stokes. split; vm_compute; reflexivity. Qed.
(* a schema with names at two depths is accepted although its shape has positions without a name *)
Theorem C51_ragged_refuted : exists t r sh idx, element_indices_and_shape t = Ok (r, sh) /\
  inside idx sh /\ ~ exists s, at_ (boxed t) idx s.
Proof.
  exists (SSeq [SStr "XX"; SSeq [SStr "XY"; SStr "YX"]]).
  eexists. eexists. exists [0; 1]. split; [vm_compute; reflexivity|]. split; [repeat constructor|].
  intros (s & e & H & _). discriminate H.
Qed.
Example ex_reject :
  element_indices_and_shape (SSeq [SStr "I"; SInt 1]) = Raise ValueError /\
  element_indices_and_shape (SSeq [SStr "I"; SInt 33]) = Raise ValueError /\
  element_indices_and_shape (SSeq [SSeq [SStr "I"]; SSeq [SStr "Q"; SStr "U"]]) = Raise DimensionInvalid /\
  element_indices_and_shape (SSeq [SOther]) = Raise TypeError /\
  convert qh (fun _ => cx0) ex_stokes flat_stokes (SSeq [SStr "I"]) = Raise MissingConversion /\
  convert qh (fun _ => cx0) ex_stokes square_linear flat_stokes = Raise ValueError.
Proof. repeat split; vm_compute; reflexivity. Qed.
Example ex_nothing : named (boxed (SSeq [])) /\ consistent (boxed (SSeq [])) /\ forall idx s, ~ at_ (boxed (SSeq [])) idx s.
Proof.
  assert (S : forall idx e, sub (SSeq []) idx = Some e -> idx = [] /\ e = SSeq []).
  { intros [|i idx] e E; cbn in E; [injection E as <-; auto|]. destruct i; discriminate E. }
  split; [|split]; cbn [boxed].
  - intros idx e E. apply S in E. left. exists []. tauto.
  - intros i j l m E F _. apply S in E, F. destruct E as [_ E], F as [_ F]. congruence.
  - intros idx s (e & E & L). apply S in E. destruct E as [_ ->]. discriminate L.
Qed.
Example ex_codes : type_id "XX" = Some 9 /\ id_type 12 = Some "YY" /\ id_type 33 = None /\ id_type (-1) = None.
Proof. repeat split; vm_compute; reflexivity. Qed.

Print Assumptions C50_stokes_to_linear.
Print Assumptions C50_stokes_to_circular.
Print Assumptions C50_linear_to_stokes.
Print Assumptions C50_circular_to_stokes.
Print Assumptions C50_linear_roundtrip.
Print Assumptions C50_circular_roundtrip.
Print Assumptions C50_linear_roundtrip_back.
Print Assumptions C50_circular_roundtrip_back.
Print Assumptions C50_non_hermitian_refuted.
Print Assumptions C51_schema_accepted.
Print Assumptions C51_schema_positions.
Print Assumptions C51_schema_shape.
Print Assumptions C51_convert.
Print Assumptions C51_convert_needs.
Print Assumptions C51_convert_nothing.
Print Assumptions C51_pointwise.
Print Assumptions C51_unknown_output_refuted.
Print Assumptions C51_ragged_refuted.
Print Assumptions C76_type_to_id.
Print Assumptions C76_id_to_type.
Print Assumptions C76_inverse.
