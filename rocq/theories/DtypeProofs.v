(* Proofs about the data types of results. *)
From Coq Require Import String.
From Verif Require Import Prelude DtypeModel DtypeSpec.
Open Scope list_scope.
Open Scope nat_scope.

(** floating data types as two bits *)
Definition dbl (d : dtype) : bool := match d with F64 | C128 => true | _ => false end.
Definition data (d : dtype) : bool := match d with F32 | F64 | C64 | C128 => true | _ => false end.

Lemma data_spec d : data_type d <-> data d = true.
Proof. unfold data_type, real_type, complex_type. split; [intros [[->| ->]|[->| ->]]; reflexivity|]. destruct d; try discriminate; intuition. Qed.

Lemma dbl_spec d : is_double d <-> dbl d = true.
Proof. unfold is_double. split; [intros [->| ->]; reflexivity|]. destruct d; try discriminate; intuition. Qed.

Lemma complex_spec d : data d = true -> (complex_type d <-> is_complex d = true).
Proof. unfold complex_type. intros D. split; [intros [->| ->]; reflexivity|]. destruct d; try discriminate; intuition. Qed.

Lemma real_spec d : real_type d <-> data d = true /\ is_complex d = false.
Proof. unfold real_type. split; [intros [->| ->]; split; reflexivity|]. destruct d; intros [A B]; try discriminate; intuition. Qed.

Lemma data_ext a b : data a = true -> data b = true -> is_complex a = is_complex b -> dbl a = dbl b -> a = b.
Proof. destruct a, b; try discriminate; reflexivity. Qed.

Lemma promote_data a b : data a = true -> data b = true ->
  data (promote a b) = true /\ is_complex (promote a b) = is_complex a || is_complex b /\ dbl (promote a b) = dbl a || dbl b.
Proof. destruct a, b; try discriminate; intros; repeat split. Qed.

Lemma fold_data l : forall d, data d = true -> forallb data l = true ->
  let r := fold_left promote l d in
  data r = true /\ is_complex r = is_complex d || existsb is_complex l /\ dbl r = dbl d || existsb dbl l.
Proof.
  induction l as [|a l IH]; simpl; intros d D L; [now rewrite !orb_false_r|]. apply andb_prop in L as [A L].
  destruct (promote_data d a D A) as (P1 & P2 & P3). destruct (IH _ P1 L) as (I1 & I2 & I3). rewrite I2, I3, P2, P3.
  now rewrite !orb_assoc.
Qed.

Lemma result_data l d : forallb data l = true -> result_type l = Ok d ->
  data d = true /\ is_complex d = existsb is_complex l /\ dbl d = existsb dbl l.
Proof.
  destruct l as [|a l]; simpl; [discriminate|]. intros L E. injection E as <-. apply andb_prop in L as [A L]. exact (fold_data l a A L).
Qed.

Lemma result_some l : l <> [] -> exists d, result_type l = Ok d.
Proof. destruct l; [congruence|]. simpl. eauto. Qed.

Lemma result_same l m d e : forallb data l = true -> forallb data m = true -> result_type l = Ok d -> result_type m = Ok e ->
  existsb is_complex l = existsb is_complex m -> existsb dbl l = existsb dbl m -> d = e.
Proof.
  intros L M E F A B. destruct (result_data l d L E) as (P & Q & R). destruct (result_data m e M F) as (P' & Q' & R').
  apply data_ext; auto; congruence.
Qed.

(** infer_complex_dtype *)
Lemma promote_complex c d : is_complex c = true -> is_complex (promote c d) = true /\ float_bits (promote c d) = max (float_bits c) (float_bits d).
Proof. destruct c, d; try discriminate; intros; split; reflexivity. Qed.

Lemma fold_complex l : forall c, is_complex c = true ->
  fold_left promote l c = of_complex (fold_left max (map float_bits l) (float_bits c)).
Proof.
  induction l as [|d l IH]; simpl; intros c C; [destruct c; try discriminate; reflexivity|].
  destruct (promote_complex c d C) as [P Q]. now rewrite IH, Q.
Qed.

Lemma fold_max_in l n : In (fold_left max l n) (n :: l).
Proof.
  revert n. induction l as [|a l IH]; simpl; intros n; [auto|].
  destruct (IH (max n a)) as [E|I].
  - rewrite <- E. destruct (Nat.max_spec n a) as [[_ ->]|[_ ->]]; auto.
  - auto.
Qed.
Lemma fold_max_ge l : forall n m, In m (n :: l) -> m <= fold_left max l n.
Proof.
  induction l as [|a l IH]; simpl; intros n m I.
  - destruct I as [->|[]]. lia.
  - destruct I as [->|[->|I]].
    + etransitivity; [|apply IH; left; reflexivity]. lia.
    + etransitivity; [|apply IH; left; reflexivity]. lia.
    + apply IH. now right.
Qed.

Lemma infer_main l : infer_complex_dtype l =
  do! ds <- all_dtypes l; Ok (of_complex (fold_left max (map float_bits ds) 32)).
Proof. unfold infer_complex_dtype. destruct (all_dtypes l) as [ds|]; [|reflexivity]. simpl. f_equal. now apply fold_complex. Qed.

Lemma all_dtypes_of (mk : dtype -> argument) l : (forall d, numpy_dtype (mk d) = Ok d) -> all_dtypes (map mk l) = Ok l.
Proof. intros H. induction l as [|d l IH]; simpl; [reflexivity|]. now rewrite H, IH. Qed.

Lemma all_dtypes_spec l ds : all_dtypes l = Ok ds -> Forall2 (fun a d => a = NumpyArray d \/ a = NumbaArray d \/ a = DaskArray d) l ds.
Proof.
  revert ds. induction l as [|a l IH]; simpl; intros ds E; [injection E as <-; constructor|].
  destruct a; simpl in E; try discriminate; destruct (all_dtypes l) as [r|]; try discriminate; injection E as <-; constructor; auto.
Qed.
Lemma all_dtypes_total l ds : Forall2 (fun a d => a = NumpyArray d \/ a = NumbaArray d \/ a = DaskArray d) l ds -> all_dtypes l = Ok ds.
Proof. intros F. induction F as [|a d l ds [->|[->| ->]] F IH]; simpl; [reflexivity|..]; now rewrite IH. Qed.

Lemma all_dtypes_raise l e : all_dtypes l = Raise e -> e = ValueError /\ In OtherArgument l.
Proof.
  induction l as [|a l IH]; simpl; [discriminate|]. destruct a; simpl; try (destruct (all_dtypes l); [discriminate|]; simpl; intros E; injection E as <-; destruct IH; auto; fail).
  intros E. injection E as <-. auto.
Qed.

Lemma infer_bits ds : let r := of_complex (fold_left max (map float_bits ds) 32) in
  (r = C256 <-> exists d, In d ds /\ extended d) /\
  (r = C128 <-> (exists d, In d ds /\ double_needed d) /\ forall d, In d ds -> ~ extended d) /\
  (r = C64 <-> forall d, In d ds -> ~ double_needed d /\ ~ extended d).
Proof.
  set (n := fold_left max (map float_bits ds) 32).
  assert (G : forall d, In d ds -> float_bits d <= n) by (intros d I; apply fold_max_ge; right; now apply in_map).
  assert (M : n = 32 \/ exists d, In d ds /\ float_bits d = n).
  { destruct (fold_max_in (map float_bits ds) 32) as [E|I]; [left; symmetry; exact E|]. right. apply in_map_iff in I as (d & E & I). eauto. }
  assert (H32 : 32 <= n) by (apply fold_max_ge; now left).
  clearbody n.
  assert (EX : forall d, extended d <-> float_bits d = 128) by (intros []; unfold extended; simpl; split; intros; intuition; discriminate).
  assert (DN : forall d, double_needed d <-> float_bits d = 64) by (intros []; unfold double_needed; simpl; split; intros; intuition; discriminate).
  assert (V : n = 32 \/ n = 64 \/ n = 128).
  { destruct M as [E|(d & _ & E)]; [auto|]. destruct d; simpl in E; lia. }
  cbv zeta. destruct V as [V|[V|V]]; rewrite V in *; unfold of_complex; simpl.
  - split; [|split]; split; try discriminate.
    + intros (d & I & E). apply EX in E. specialize (G d I). lia.
    + intros ((d & I & E) & _). apply DN in E. specialize (G d I). lia.
    + intros _ d I. rewrite DN, EX. specialize (G d I). lia.
    + reflexivity.
  - destruct M as [M|(d & I & E)]; [lia|]. split; [|split]; split; try discriminate.
    + intros (e & J & F). apply EX in F. specialize (G e J). lia.
    + intros _. split; [exists d; rewrite DN; auto|]. intros e J. rewrite EX. specialize (G e J). lia.
    + reflexivity.
    + intros H. destruct (H d I) as [A _]. rewrite DN in A. lia.
  - destruct M as [M|(d & I & E)]; [lia|]. split; [|split]; split; try discriminate.
    + intros _. exists d. rewrite EX. auto.
    + reflexivity.
    + intros (_ & H). destruct (H d I). now rewrite EX.
    + intros H. destruct (H d I) as [_ A]. rewrite EX in A. lia.
Qed.

Lemma infer_spec l ds : Forall2 (fun a d => a = NumpyArray d \/ a = NumbaArray d \/ a = DaskArray d) l ds ->
  exists r, infer_complex_dtype l = Ok r /\
  (r = C256 <-> exists d, In d ds /\ extended d) /\
  (r = C128 <-> (exists d, In d ds /\ double_needed d) /\ forall d, In d ds -> ~ extended d) /\
  (r = C64 <-> forall d, In d ds -> ~ double_needed d /\ ~ extended d).
Proof. intros F. rewrite infer_main, (all_dtypes_total _ _ F). simpl. eexists. split; [reflexivity|]. apply infer_bits. Qed.

Lemma infer_other l : In OtherArgument l -> infer_complex_dtype l = Raise ValueError.
Proof.
  intros I. unfold infer_complex_dtype. destruct (all_dtypes l) as [ds|e] eqn:E.
  - apply all_dtypes_spec in E. exfalso. induction E as [|a d l ds H E IH]; [easy|]. destruct I as [->|I]; [|auto]. destruct H as [H|[H|H]]; discriminate.
  - apply all_dtypes_raise in E as [-> _]. reflexivity.
Qed.

(** predict_vis *)
Lemma given_In {A} (l : list (option A)) d : In d (given l) <-> In (Some d) l.
Proof.
  induction l as [|[a|] l IH]; simpl; [tauto|..]; rewrite IH; [|intuition discriminate].
  split; intros [H|H]; auto; left; congruence.
Qed.

Lemma all_data l : all_given data_type l -> forallb data (given l) = true.
Proof. intros H. apply forallb_forall. intros d I. apply data_spec, H. now apply given_In. Qed.

Lemma existsb_in {f : dtype -> bool} {P : dtype -> Prop} l : (forall d, In d l -> (P d <-> f d = true)) -> existsb f l = true <-> exists d, In d l /\ P d.
Proof. intros H. rewrite existsb_exists. split; intros (d & I & E); exists d; split; auto; now apply H. Qed.

Lemma covered_spec d l : data d = true -> forallb data l = true -> (covered d l <-> (is_complex d = true -> existsb is_complex l = true) /\ (dbl d = true -> existsb dbl l = true)).
Proof.
  intros D L. rewrite forallb_forall in L. unfold covered.
  rewrite (existsb_in (f := is_complex) (P := complex_type) l) by (intros e I; apply complex_spec; auto).
  rewrite (existsb_in (f := dbl) (P := is_double) l) by (intros e I; apply dbl_spec).
  now rewrite (complex_spec d D), (dbl_spec d).
Qed.

Lemma given_app {A} (l m : list (option A)) : given (l ++ m) = given l ++ given m.
Proof. induction l as [|[a|] l IH]; simpl; [reflexivity|now rewrite IH|assumption]. Qed.

(* what the blocks of the chunked prediction have *)
Lemma predict_computed a b c d e f r : all_given data_type [a; b; c; d; e; f] ->
  dask_predict_declared a b c d e f = Ok r ->
  exists s, dask_predict_computed a b c d e f = Ok s /\ data s = true /\
    is_complex s = existsb is_complex (given [a; b; c; d; e; f]) /\ dbl s = existsb dbl (given [a; b; c; d; e; f]).
Proof.
  intros D E. unfold dask_predict_computed. rewrite E. simpl bind.
  assert (D0 : forall o, In o [a; b; c; d; e; f] -> match o with Some t => data t = true | None => True end).
  { intros [t|] I; [|exact Logic.I]. apply data_spec. now apply D. }
  assert (Da := D0 a ltac:(simpl; auto)). assert (Db := D0 b ltac:(simpl; auto)). assert (Dc := D0 c ltac:(simpl; auto)).
  assert (Dd := D0 d ltac:(simpl; auto)). assert (De := D0 e ltac:(simpl; auto 6)). assert (Df := D0 f ltac:(simpl; auto 7)). clear D0.
  unfold dask_predict_declared, np_predict in *.
  destruct (xorb (have a) (have c)) eqn:X1; [discriminate|]. destruct (xorb (have d) (have f)) eqn:X2; [discriminate|].
  destruct (have b || have a && have c) eqn:Hs.
  - (* there are coherencies *)
    assert (NE : given [a; b; c; None; None; None] <> []).
    { destruct a, b, c; simpl in *; try discriminate. }
    destruct (result_some _ NE) as [t T]. rewrite T. simpl bind.
    assert (L3 : forallb data (given [a; b; c; None; None; None]) = true).
    { apply all_data. intros x I. apply D. simpl in *. intuition discriminate. }
    destruct (result_data _ t L3 T) as (T1 & T2 & T3).
    assert (S2 : existsb is_complex (given [a; b; c; d; e; f]) = is_complex t || existsb is_complex (given [d; e; f])).
    { rewrite T2. destruct a, b, c; simpl; rewrite ?orb_false_r, ?orb_assoc; reflexivity. }
    assert (S3 : existsb dbl (given [a; b; c; d; e; f]) = dbl t || existsb dbl (given [d; e; f])).
    { rewrite T3. destruct a, b, c; simpl; rewrite ?orb_false_r, ?orb_assoc; reflexivity. }
    rewrite S2, S3.
    destruct e as [e|]; simpl have; cbv iota.
    + rewrite andb_false_r. destruct (promote_data e t De T1) as (P1 & P2 & P3).
      destruct d as [d|], f as [f|]; simpl in X2; try discriminate; simpl.
      * destruct (promote_data d (promote e t) Dd P1) as (Q1 & Q2 & Q3). destruct (promote_data _ f Q1 Df) as (R1 & R2 & R3).
        eexists. split; [reflexivity|]. rewrite R2, R3, Q2, Q3, P2, P3. split; [exact R1|].
        split; [destruct (is_complex d), (is_complex e), (is_complex t), (is_complex f)|destruct (dbl d), (dbl e), (dbl t), (dbl f)]; reflexivity.
      * eexists. split; [reflexivity|]. rewrite P2, P3, !orb_false_r. split; [exact P1|]. split; apply orb_comm.
    + destruct d as [d|], f as [f|]; simpl in X2; try discriminate; simpl.
      * destruct (promote_data d t Dd T1) as (Q1 & Q2 & Q3). destruct (promote_data _ f Q1 Df) as (R1 & R2 & R3).
        eexists. split; [reflexivity|]. rewrite R2, R3, Q2, Q3. split; [exact R1|].
        split; [destruct (is_complex d), (is_complex t), (is_complex f)|destruct (dbl d), (dbl t), (dbl f)]; reflexivity.
      * exists t. rewrite !orb_false_r. auto.
  - destruct a, b, c; simpl in *; try discriminate.
    destruct d as [d|], f as [f|]; simpl in *; try discriminate.
    destruct e as [e|]; simpl.
    + destruct (promote_data d e Dd De) as (Q1 & Q2 & Q3). destruct (promote_data _ f Q1 Df) as (R1 & R2 & R3).
      eexists. split; [reflexivity|]. rewrite R2, R3, Q2, Q3, !orb_false_r, !orb_assoc. auto.
    + destruct (promote_data d f Dd Df) as (Q1 & Q2 & Q3). eexists. split; [reflexivity|]. rewrite Q2, Q3, !orb_false_r. auto.
Qed.

Lemma declared_computed_raise a b c d e f x : dask_predict_declared a b c d e f = Raise x -> dask_predict_computed a b c d e f = Raise x.
Proof. intros E. unfold dask_predict_computed. now rewrite E. Qed.

Lemma predict_honest a b c d e f : all_given data_type [a; b; c; d; e; f] ->
  (declared (Predict a b c d e f) = computed (Predict a b c d e f) <-> honest (Predict a b c d e f)).
Proof.
  intros D. unfold computed, declared. cbv iota beta. destruct (dask_predict_declared a b c d e f) as [r|x] eqn:E.
  - simpl bind. destruct (predict_computed a b c d e f r D E) as (s & S & S1 & S2 & S3). rewrite S.
    unfold dask_predict_declared in E. destruct (xorb (have a) (have c)) eqn:X1; [discriminate|]. destruct (xorb (have d) (have f)) eqn:X2; [discriminate|].
    assert (L : forallb data (given [a; b; c; d; f]) = true).
    { apply all_data. intros t I. apply D. simpl in *. tauto. }
    destruct (result_data _ r L E) as (R1 & R2 & R3).
    destruct e as [e|]; unfold honest.
    + assert (De : data e = true) by (apply data_spec, D; simpl; auto 6).
      assert (K : forall g : dtype -> bool, existsb g (given [a; b; c; d; Some e; f]) = g e || existsb g (given [a; b; c; d; f])).
      { intros g. destruct a, b, c, d, f; simpl; rewrite ?orb_false_r; repeat match goal with |- context [g ?x] => destruct (g x) end; reflexivity. }
      rewrite K in S2, S3. rewrite <- R2 in S2. rewrite <- R3 in S3.
      assert (NE : given [a; b; c; d; f] <> []) by (destruct (given [a; b; c; d; f]); [discriminate|congruence]).
      assert (CV := covered_spec e _ De L). rewrite <- R2, <- R3 in CV. split.
      * intros Q. injection Q as ->. right. right. right. apply CV. rewrite S2, S3. destruct (is_complex e), (dbl e), (is_complex s), (dbl s); simpl; auto.
      * intros [Q|[Q|[Q|Q]]]; [congruence..|]. f_equal. apply CV in Q as [Q1 Q2]. apply data_ext; auto; [rewrite S2|rewrite S3].
        -- destruct (is_complex e); [rewrite Q1|]; auto.
        -- destruct (dbl e); [rewrite Q2|]; auto.
    + change (given [a; b; c; d; None; f]) with (given [a; b; c; d; f]) in S2, S3.
      split; [auto|intros _]. f_equal. apply data_ext; auto; congruence.
  - simpl bind. split; [|reflexivity]. intros _. simpl. destruct e as [e|]; [|exact I].
    unfold dask_predict_declared in E. destruct (xorb (have a) (have c)); [auto|]. destruct (xorb (have d) (have f)); [auto|].
    destruct (given [a; b; c; d; f]) eqn:G; [auto|discriminate].
Qed.

Lemma honest_main c : well_typed c -> (declared c = computed c <-> honest c).
Proof.
  intros W. destruct c; try (now apply predict_honest); simpl in W;
    unfold data_type, real_type, complex_type in W;
    repeat match goal with
           | H : _ /\ _ |- _ => destruct H
           | H : _ \/ _ |- _ => destruct H
           | H : ?x = _ |- _ => subst x
           | b : backend |- _ => destruct b
           end; simpl; unfold is_double;
    try (split; intros; try reflexivity; try exact I; intuition discriminate; fail);
    try (match goal with o : option dtype |- _ => destruct o end; simpl; split; intros; try reflexivity; exact I).
Qed.

(** the plain and the chunked forms *)
Lemma np_spec l d : (forall e, In e l -> data_type e) -> result_type l = Ok d ->
  of_kind_and_precision (exists e, In e l /\ complex_type e) (exists e, In e l /\ is_double e) d.
Proof.
  intros H E. assert (L : forallb data l = true) by (apply forallb_forall; intros e I; apply data_spec; auto).
  destruct (result_data l d L E) as (A & B & C). split; [now apply data_spec|]. split.
  - rewrite (complex_spec d A), B. apply existsb_in. intros e I. apply complex_spec. apply data_spec. auto.
  - rewrite dbl_spec, C. apply existsb_in. intros e I. apply dbl_spec.
Qed.

Lemma predict_cpu a b c d e f r : all_given data_type [a; b; c; d; e; f] -> np_predict a b c d e f = Ok r ->
  of_kind_and_precision (exists t, In (Some t) [a; b; c; d; e; f] /\ complex_type t) (exists t, In (Some t) [a; b; c; d; e; f] /\ is_double t) r.
Proof.
  intros D E. unfold np_predict in E. destruct (xorb (have a) (have c)); [discriminate|]. destruct (xorb (have d) (have f)); [discriminate|].
  assert (N := np_spec (given [a; b; c; d; e; f]) r ltac:(intros t I; apply D; now apply given_In) E).
  destruct N as (N1 & N2 & N3). split; [exact N1|]. rewrite N2, N3.
  split; split; intros (t & I & P); exists t; split; auto; now apply given_In.
Qed.

(* the chunked prediction computes the type of the plain one *)
Lemma predict_agree a b c d e f r : all_given data_type [a; b; c; d; e; f] -> dask_predict_computed a b c d e f = Ok r -> np_predict a b c d e f = Ok r.
Proof.
  intros D E. destruct (dask_predict_declared a b c d e f) as [t|x] eqn:T; [|unfold dask_predict_computed in E; rewrite T in E; discriminate].
  destruct (predict_computed a b c d e f t D T) as (s & S & S1 & S2 & S3). rewrite S in E. injection E as ->.
  unfold dask_predict_declared in T. unfold np_predict. destruct (xorb (have a) (have c)); [discriminate|]. destruct (xorb (have d) (have f)); [discriminate|].
  assert (NE : given [a; b; c; d; e; f] <> []).
  { destruct a, b, c, d, f; simpl in *; discriminate. }
  destruct (result_some _ NE) as [u U]. rewrite U. f_equal. destruct (result_data _ u (all_data _ D) U) as (U1 & U2 & U3).
  apply data_ext; auto; congruence.
Qed.

Lemma plain_and_chunked c d : well_typed c -> computed c = Ok d ->
  (computed_np c = Ok d <-> match c with
    | ImToVis i u l f None | VisToIm i u l f None => is_double i \/ is_double u \/ is_double l \/ is_double f
    | _ => True end).
Proof.
  intros W. destruct c;
    try (unfold computed; destruct (declared (Predict _ _ _ _ _ _)); [|discriminate]; simpl bind; intros E; split; [auto|intros _]; now apply predict_agree);
    simpl in W;
    unfold data_type, real_type, complex_type in W;
    repeat match goal with
           | H : _ /\ _ |- _ => destruct H
           | H : _ \/ _ |- _ => destruct H
           | H : ?x = _ |- _ => subst x
           | b : backend |- _ => destruct b
           end; simpl; unfold is_double;
    try (intros E; injection E as <-; split; intros; try reflexivity; try exact I; intuition discriminate; fail);
    try (match goal with o : option dtype |- _ => destruct o end; simpl; intros E; injection E as <-; split; intros; try reflexivity; try exact I; intuition discriminate).
Qed.

(** CUDA *)
Lemma cuda_type_main a s : cuda_type a = Ok s <-> exists d, (a = CudaArray d \/ a = CudaDtype d \/ a = CudaClass d) /\ c_type s (itemsize d) (kind_of d).
Proof.
  split.
  - destruct a as [d|d|d|]; simpl; try discriminate; destruct d; simpl; try discriminate; intros E; injection E as <-;
      (eexists; split; [(left; reflexivity) || (right; left; reflexivity) || (right; right; reflexivity)|constructor]).
  - intros (d & H & T). assert (M : match cuda_type_map d with Some s => Ok s | None => Raise ValueError end = Ok s).
    { destruct d; simpl in *; inversion T; reflexivity. }
    destruct H as [->|[->| ->]]; exact M.
Qed.

Lemma cuda_type_inj a b d e s : (a = CudaArray d \/ a = CudaDtype d \/ a = CudaClass d) -> (b = CudaArray e \/ b = CudaDtype e \/ b = CudaClass e) ->
  cuda_type a = Ok s -> cuda_type b = Ok s -> d = e.
Proof.
  intros A B. assert (A' : cuda_type a = match cuda_type_map d with Some s => Ok s | None => Raise ValueError end) by (destruct A as [->|[->| ->]]; reflexivity).
  assert (B' : cuda_type b = match cuda_type_map e with Some s => Ok s | None => Raise ValueError end) by (destruct B as [->|[->| ->]]; reflexivity).
  rewrite A', B'. destruct d; simpl; try discriminate; intros E; injection E as <-; destruct e; simpl; try discriminate; reflexivity.
Qed.

Lemma cuda_type_refused a : (exists s, cuda_type a = Ok s) \/ cuda_type a = Raise ValueError.
Proof. destruct a as [d|d|d|]; auto; destruct d; simpl; eauto. Qed.

Lemma lookup_in l k f : lookup l k = Some f -> In (k, f) l.
Proof. induction l as [|[a b] l IH]; simpl; [discriminate|]. destruct (String.eqb_spec a k) as [->|]; [intros E; injection E as ->; auto|auto]. Qed.

Lemma function_double k f : cuda_function k F64 = Ok f <-> math_function k f \/ k = "make2"%string /\ f = "make_double2"%string.
Proof.
  split.
  - unfold cuda_function. simpl cuda_fns. cbv iota. intros E. destruct (lookup _ k) as [g|] eqn:L; [|discriminate]. injection E as ->.
    apply lookup_in in L. simpl in L.
    repeat (destruct L as [L|L]; [injection L as <- <-; try (now right); left; try constructor; simpl; auto 10|]). destruct L.
  - intros [M|[-> ->]]; [|reflexivity]. destruct M as [| | |f I]; try reflexivity. simpl in I.
    repeat (destruct I as [<-|I]; [reflexivity|]). destruct I.
Qed.

Lemma function_single k f : cuda_function k F32 = Ok f <->
  (exists g, math_function k g /\ f = (g ++ "f")%string) \/ k = "make2"%string /\ f = "make_float2"%string.
Proof.
  split.
  - unfold cuda_function. simpl cuda_fns. cbv iota. intros E. destruct (lookup _ k) as [g|] eqn:L; [|discriminate]. injection E as ->.
    apply lookup_in in L. simpl in L.
    repeat (destruct L as [L|L]; [injection L as <- <-; try (now right); left; eexists; (split; [try constructor; simpl; auto 10|reflexivity])|]). destruct L.
  - intros [(g & M & ->)|[-> ->]]; [|reflexivity]. destruct M as [| | |f I]; try reflexivity. simpl in I.
    repeat (destruct I as [<-|I]; [reflexivity|]). destruct I.
Qed.

Lemma function_refused k d : (exists f, cuda_function k d = Ok f) \/ cuda_function k d = Raise ValueError.
Proof. unfold cuda_function. destruct (cuda_fns d); [|auto]. destruct (lookup l k); eauto. Qed.
Lemma function_types k d f : cuda_function k d = Ok f -> real_type d.
Proof. unfold cuda_function, real_type. destruct d; simpl; try discriminate; auto. Qed.

(* the phase on the graphics card *)
Lemma phase_gpu a b c : (exists d, cuda_phase a b c = Ok d) <-> real_type a /\ is_complex b = false /\ is_complex c = false /\ b <> F128 /\ c <> F128.
Proof.
  unfold real_type. split.
  - intros (d & E). destruct a; try discriminate E;
      (destruct b; try (destruct c; discriminate E); destruct c; try discriminate E; repeat split; auto; discriminate).
  - intros ([->| ->] & B & C & B' & C'); destruct b; try discriminate; try congruence; destruct c; try discriminate; try congruence; eexists; reflexivity.
Qed.
Lemma phase_gpu_cpu a b c d : cuda_phase a b c = Ok d -> computed_np (PhaseDelay a b c) = Ok d.
Proof.
  intros E. destruct a; try discriminate E;
      (destruct b; try (destruct c; discriminate E); destruct c; try discriminate E; exact E).
Qed.
Lemma phase_gpu_refused a b c : (exists d, cuda_phase a b c = Ok d) \/ cuda_phase a b c = Raise ValueError.
Proof.
  unfold cuda_phase. simpl result_type. simpl bind. destruct (function_refused "sqrt" a) as [[f ->]| ->]; [|auto]. simpl bind.
  destruct (function_refused "sincos" (promote (promote a b) c)) as [[g ->]| ->]; [|auto]. simpl. eauto.
Qed.

Lemma feed_gpu_cpu d c : cuda_feed d = Ok c <-> computed_np (FeedRotation d) = Ok c.
Proof. destruct d; simpl; split; intros; try discriminate; assumption. Qed.

(* the prediction on the graphics card *)
Lemma types_exist_complex l : (forall d, In d l -> complex_type d) -> types_exist l = Ok tt.
Proof.
  induction l as [|d l IH]; simpl; intros H; [reflexivity|].
  destruct (H d (or_introl eq_refl)) as [->| ->]; simpl; apply IH; intros e I; apply H; auto.
Qed.

Lemma predict_gpu a b c d e f : all_given complex_type [a; b; c; d; e; f] -> have a = have c -> have d = have f ->
  exists r, cuda_predict I32 I32 I32 a b c d e f = Ok r /\
    (r = C64 <-> forall o, In o [a; b; c; d; e; f] -> o = Some C64) /\
    (r = C64 \/ r = C128 \/ r = F64 /\ given [a; b; c; d; e; f] = []).
Proof.
  intros C X Y. unfold cuda_predict. rewrite X, Y, !xorb_nilpotent. simpl negb. cbv iota.
  rewrite types_exist_complex by (intros t I; apply C; apply given_In in I; simpl in *; tauto).
  set (l := map none_is_double [a; b; c; d; e; f]).
  assert (L : forallb data l = true).
  { unfold l. apply forallb_forall. intros t I. apply in_map_iff in I as ([u|] & <- & I); [|reflexivity]. simpl. destruct (C u I) as [->| ->]; reflexivity. }
  destruct (result_some l ltac:(discriminate)) as [r R]. rewrite R. cbv beta iota delta [bind].
  destruct (result_data l r L R) as (R1 & R2 & R3).
  assert (T : exists s, cuda_type (CudaDtype r) = Ok s) by (destruct r; try discriminate R1; eexists; reflexivity).
  destruct T as [s T]. rewrite T. exists r. split; [reflexivity|].
  assert (F : forall o, In o [a; b; c; d; e; f] -> o = None \/ o = Some C64 \/ o = Some C128).
  { intros [t|] I; [|auto]. destruct (C t I) as [->| ->]; auto. }
  split; [split|].
  - intros ->. change (dbl C64) with false in R3. symmetry in R3. intros o I. destruct (F o I) as [->|[->| ->]]; [|reflexivity|].
    + assert (A : existsb dbl l = true) by (apply existsb_exists; exists F64; split; [unfold l; apply in_map_iff; exists None; auto|reflexivity]). congruence.
    + assert (A : existsb dbl l = true) by (apply existsb_exists; exists C128; split; [unfold l; apply in_map_iff; exists (Some C128); auto|reflexivity]). congruence.
  - intros A. unfold l in R2, R3. rewrite (A a), (A b), (A c), (A d), (A e), (A f) in R2, R3 by (simpl; auto 8). simpl in R2, R3.
    destruct r; try discriminate; reflexivity.
  - destruct (given [a; b; c; d; e; f]) as [|t g] eqn:G.
    + destruct r; try discriminate R1; auto. exfalso.
      assert (A : existsb dbl l = true).
      { destruct a; [discriminate|]. reflexivity. }
      rewrite A in R3. discriminate.
    + assert (I : In (Some t) [a; b; c; d; e; f]) by (apply given_In; rewrite G; now left).
      assert (A : existsb is_complex l = true).
      { apply existsb_exists. exists t. split; [unfold l; apply in_map_iff; exists (Some t); auto|]. destruct (C t I) as [->| ->]; reflexivity. }
      rewrite A in R2. destruct r; try discriminate R1; auto; discriminate R2.
Qed.

Lemma predict_gpu_index t p q a b c d e f : have a = have c -> have d = have f -> (t <> I32 \/ p <> I32 \/ q <> I32) ->
  cuda_predict t p q a b c d e f = Raise TypeError.
Proof.
  intros X Y H. unfold cuda_predict. rewrite X, Y, !xorb_nilpotent.
  destruct t; try reflexivity; destruct p; try reflexivity; destruct q; try reflexivity; intuition congruence.
Qed.

Lemma coords_gpu a b c d e : real_type a -> real_type b -> real_type c -> real_type d -> real_type e ->
  exists t, cuda_coords a b c d e = Ok t /\ real_type t /\ (is_double t <-> is_double a \/ is_double b \/ is_double c \/ is_double d \/ is_double e).
Proof.
  unfold real_type, is_double. intros [->| ->] [->| ->] [->| ->] [->| ->] [->| ->]; (eexists; split; [reflexivity|]; split; [auto|]; intuition discriminate).
Qed.

From Coq Require Import Permutation.
Lemma infer_order l l' : Permutation l l' -> infer_complex_dtype l = infer_complex_dtype l'.
Proof.
  intros P. rewrite !infer_main. assert (H : match all_dtypes l, all_dtypes l' with Ok a, Ok b => Permutation a b | Raise a, Raise b => a = b | _, _ => False end).
  { destruct (all_dtypes l) as [a|x] eqn:A, (all_dtypes l') as [b|y] eqn:B.
    - clear - P A B. revert a b A B. induction P as [|u l l' P IH|u v l|l l1 l2 P IH P2 IH2]; intros a b A B.
      + simpl in *. injection A as <-. injection B as <-. constructor.
      + simpl in *. destruct (numpy_dtype u); [|discriminate]. simpl in *. destruct (all_dtypes l) as [r|]; [|discriminate]. destruct (all_dtypes l') as [s|]; [|discriminate].
        injection A as <-. injection B as <-. constructor. auto.
      + simpl in *. destruct (numpy_dtype u), (numpy_dtype v); simpl in *; try discriminate. destruct (all_dtypes l); simpl in *; try discriminate.
        injection A as <-. injection B as <-. constructor.
      + destruct (all_dtypes l1) as [r|x] eqn:R; [exact (perm_trans (IH a r A eq_refl) (IH2 r b eq_refl B))|]. apply all_dtypes_raise in R as [_ R].
        apply (Permutation_in _ (Permutation_sym P)) in R. pose proof (infer_other l R) as O. unfold infer_complex_dtype in O. rewrite A in O. discriminate.
    - apply all_dtypes_raise in B as [_ B]. apply (Permutation_in _ (Permutation_sym P)) in B. pose proof (infer_other l B) as O. unfold infer_complex_dtype in O. rewrite A in O. discriminate.
    - apply all_dtypes_raise in A as [_ A]. apply (Permutation_in _ P) in A. pose proof (infer_other l' A) as O. unfold infer_complex_dtype in O. rewrite B in O. discriminate.
    - apply all_dtypes_raise in A as [-> _]. apply all_dtypes_raise in B as [-> _]. reflexivity. }
  destruct (all_dtypes l) as [a|x], (all_dtypes l') as [b|y]; try contradiction; simpl; [|congruence].
  do 2 f_equal. apply Nat.le_antisymm.
  - apply fold_max_ge. destruct (fold_max_in (map float_bits a) 32) as [E|I]; [left; exact E|right]. eapply Permutation_in; [apply Permutation_map, H|exact I].
  - apply fold_max_ge. destruct (fold_max_in (map float_bits b) 32) as [E|I]; [left; exact E|right]. eapply Permutation_in; [apply Permutation_map, Permutation_sym, H|exact I].
Qed.

Definition every_dtype : list dtype := [Bool; I8; I16; I32; I64; U8; U16; U32; U64; F16; F32; F64; F128; C64; C128; C256].
Lemma in_every d : In d every_dtype.
Proof. destruct d; simpl; tauto. Qed.
Definition simplerb (d e : dtype) : bool := (kind_rank d <? kind_rank e) || ((kind_rank d =? kind_rank e) && (itemsize d <=? itemsize e)).
Lemma promote_checked : forallb (fun a => forallb (fun b => safe_cast a (promote a b) && safe_cast b (promote a b) &&
  forallb (fun c => implb (safe_cast a c && safe_cast b c) (simplerb (promote a b) c)) every_dtype) every_dtype) every_dtype = true.
Proof. vm_compute. reflexivity. Qed.
Lemma promote_main a b : safe_cast a (promote a b) = true /\ safe_cast b (promote a b) = true /\
  forall c, safe_cast a c = true -> safe_cast b c = true -> simpler (promote a b) c.
Proof.
  generalize promote_checked. intros H. rewrite forallb_forall in H. specialize (H a (in_every a)). rewrite forallb_forall in H. specialize (H b (in_every b)).
  apply andb_prop in H as [H C]. apply andb_prop in H as [A B]. split; [exact A|]. split; [exact B|]. intros c Ha Hb.
  rewrite forallb_forall in C. specialize (C c (in_every c)). rewrite Ha, Hb in C. cbn [andb implb] in C. unfold simplerb in C. unfold simpler.
  apply orb_prop in C as [C|C]; [left; now apply Nat.ltb_lt|right]. apply andb_prop in C as [C D]. split; [now apply Nat.eqb_eq|now apply Nat.leb_le].
Qed.
Lemma feed_refused d : (exists c, cuda_feed d = Ok c) <-> real_type d.
Proof. unfold real_type. destruct d; cbn; split; intros H; try (destruct H as [x Hx]; discriminate Hx); try (destruct H; discriminate); eauto. Qed.
Lemma feed_refused2 d : ~ real_type d -> cuda_feed d = Raise TypeError.
Proof. unfold real_type. destruct d; cbn; intros H; try reflexivity; exfalso; apply H; auto. Qed.
Definition plainb (d : dtype) : bool := negb (is_complex d) && negb (dtype_beq d F128).
Lemma plain_promote a b : plainb (promote a b) = plainb a && plainb b.
Proof. destruct a, b; reflexivity. Qed.
Lemma plain_last d : plainb d = true <-> (promote d F32 = F32 \/ promote d F32 = F64).
Proof. destruct d; cbn; split; intros H; try discriminate; auto; destruct H; discriminate. Qed.
Lemma coords_types a b c d e : (forall x, In x [a; b; c; d; e] -> is_complex x = false /\ x <> F128) <-> exists t, cuda_coords a b c d e = Ok t /\ real_type t.
Proof.
  assert (S : plainb a && plainb b && plainb c && plainb d && plainb e = true <-> forall x, In x [a; b; c; d; e] -> is_complex x = false /\ x <> F128).
  { assert (P : forall x, plainb x = true <-> is_complex x = false /\ x <> F128) by (intros x; destruct x; cbn; split; intros H; try discriminate; try (destruct H; congruence); split; congruence).
    rewrite !andb_true_iff, !P. cbn. split.
    - intros [[[[H1 H2] H3] H4] H5] x [<-|[<-|[<-|[<-|[<-|[]]]]]]; auto.
    - intros H. repeat split; apply H; auto 7. }
  rewrite <- S. unfold cuda_coords, result_type. cbn [fold_left]. cbn match beta. set (x := promote (promote (promote (promote a b) c) d) e).
  assert (E : plainb x = plainb a && plainb b && plainb c && plainb d && plainb e) by (unfold x; rewrite !plain_promote; reflexivity).
  rewrite <- E, plain_last. unfold real_type. split.
  - intros [H|H]; rewrite H; cbn; eauto.
  - intros (t & Ht & R). destruct (promote x F32); cbn in Ht; try discriminate; auto.
Qed.
Lemma coords_refused a b c d e : (exists t, cuda_coords a b c d e = Ok t) \/ cuda_coords a b c d e = Raise AssertionError.
Proof. unfold cuda_coords. cbn. match goal with |- context [if ?x then _ else _] => destruct x end; eauto. Qed.
