(* C124: rounding errors of Stokes conversion. *)
From Coq Require Import Reals String Lra Lia.
From Verif Require Import Prelude CRing CplxR CohModel CohSpec CohProps RoundModel RoundSpec RoundProofs4 RhogSpec RhogProofs3 RcohModel RcohSpec RcohProofs RcohProofs2.
Open Scope R_scope.
Open Scope string_scope.
Open Scope list_scope.

(* Every correlation is the exact one, rounded once. *)
Theorem C124_to_linear : forall fl u, binary fl u -> forall is os fs di do_ (a : ndarr (rounded_real fl)) g,
  rect (boxed is) di -> distinct (boxed is) -> rect (boxed os) do_ -> distinct (boxed os) -> nd_shape a = fs ++ di ->
  all_of (boxed is) STOKES -> only (boxed os) LINEAR ->
  exists out, convert (K := rounded_real fl) (/ 2) g a is os = Ok out /\ nd_shape out = fs ++ do_ /\
    forall f i q uu v, carries (K := rounded_real fl) a f (boxed is) (stokes_of (K := rounded_real fl) i q uu v) ->
    carries (K := rounded_real fl) out f (boxed os) (rounded_once fl (linear_of (K := RR) i q uu v)).
Proof. exact to_linear. Qed.
Theorem C124_to_circular : forall fl u, binary fl u -> forall is os fs di do_ (a : ndarr (rounded_real fl)) g,
  rect (boxed is) di -> distinct (boxed is) -> rect (boxed os) do_ -> distinct (boxed os) -> nd_shape a = fs ++ di ->
  all_of (boxed is) STOKES -> only (boxed os) CIRCULAR ->
  exists out, convert (K := rounded_real fl) (/ 2) g a is os = Ok out /\ nd_shape out = fs ++ do_ /\
    forall f i q uu v, carries (K := rounded_real fl) a f (boxed is) (stokes_of (K := rounded_real fl) i q uu v) ->
    carries (K := rounded_real fl) out f (boxed os) (rounded_once fl (circular_of (K := RR) i q uu v)).
Proof. exact to_circular. Qed.
(* Every Stokes parameter of any four correlations is the exact one, rounded once: halving costs nothing. *)
Theorem C124_from_linear : forall fl u, binary fl u -> forall is os fs di do_ (a : ndarr (rounded_real fl)) g,
  rect (boxed is) di -> distinct (boxed is) -> rect (boxed os) do_ -> distinct (boxed os) -> nd_shape a = fs ++ di ->
  all_of (boxed is) LINEAR -> only (boxed os) STOKES ->
  exists out, convert (K := rounded_real fl) (/ 2) g a is os = Ok out /\ nd_shape out = fs ++ do_ /\
    forall f xx xy yx yy, carries (K := rounded_real fl) a f (boxed is) (these LINEAR [xx; xy; yx; yy]) ->
    carries (K := rounded_real fl) out f (boxed os) (rounded_once fl (stokes_of_linear xx xy yx yy)).
Proof. exact from_linear. Qed.
Theorem C124_from_circular : forall fl u, binary fl u -> forall is os fs di do_ (a : ndarr (rounded_real fl)) g,
  rect (boxed is) di -> distinct (boxed is) -> rect (boxed os) do_ -> distinct (boxed os) -> nd_shape a = fs ++ di ->
  all_of (boxed is) CIRCULAR -> only (boxed is) CIRCULAR -> only (boxed os) STOKES ->
  exists out, convert (K := rounded_real fl) (/ 2) g a is os = Ok out /\ nd_shape out = fs ++ do_ /\
    forall f rr rl lr ll, carries (K := rounded_real fl) a f (boxed is) (these CIRCULAR [rr; rl; lr; ll]) ->
    carries (K := rounded_real fl) out f (boxed os) (rounded_once fl (stokes_of_circular rr rl lr ll)).
Proof. exact from_circular. Qed.
(* There and back: U and V come back exactly, I and Q to within two roundings of the larger one. *)
Theorem C124_linear_roundtrip : forall fl u, binary fl u -> forall is os fs di do_ (a : ndarr (rounded_real fl)) g g',
  rect (boxed is) di -> distinct (boxed is) -> rect (boxed os) do_ -> distinct (boxed os) -> nd_shape a = fs ++ di ->
  all_of (boxed is) STOKES -> only (boxed is) STOKES -> all_of (boxed os) LINEAR -> only (boxed os) LINEAR ->
  exists c b, convert (K := rounded_real fl) (/ 2) g a is os = Ok c /\ convert (K := rounded_real fl) (/ 2) g' c os is = Ok b /\ nd_shape b = nd_shape a /\
    forall f i q uu v, fl uu = uu -> fl v = v -> carries (K := rounded_real fl) a f (boxed is) (stokes_of (K := rounded_real fl) i q uu v) ->
    exists i' q', carries (K := rounded_real fl) b f (boxed is) (stokes_of (K := rounded_real fl) i' q' uu v) /\
      Rabs (i' - i) <= gamma u 2 * Rmax (Rabs i) (Rabs q) /\ Rabs (q' - q) <= gamma u 2 * Rmax (Rabs i) (Rabs q).
Proof. exact linear_round. Qed.
(* With circular feeds Q and U come back exactly. *)
Theorem C124_circular_roundtrip : forall fl u, binary fl u -> forall is os fs di do_ (a : ndarr (rounded_real fl)) g g',
  rect (boxed is) di -> distinct (boxed is) -> rect (boxed os) do_ -> distinct (boxed os) -> nd_shape a = fs ++ di ->
  all_of (boxed is) STOKES -> only (boxed is) STOKES -> all_of (boxed os) CIRCULAR -> only (boxed os) CIRCULAR ->
  exists c b, convert (K := rounded_real fl) (/ 2) g a is os = Ok c /\ convert (K := rounded_real fl) (/ 2) g' c os is = Ok b /\ nd_shape b = nd_shape a /\
    forall f i q uu v, fl q = q -> fl uu = uu -> carries (K := rounded_real fl) a f (boxed is) (stokes_of (K := rounded_real fl) i q uu v) ->
    exists i' v', carries (K := rounded_real fl) b f (boxed is) (stokes_of (K := rounded_real fl) i' q uu v') /\
      Rabs (i' - i) <= gamma u 2 * Rmax (Rabs i) (Rabs v) /\ Rabs (v' - v) <= gamma u 2 * Rmax (Rabs i) (Rabs v).
Proof. exact circular_round. Qed.
(* Double precision rounds in this way. *)
Theorem C124_double : binary (nearest 53) (/ 2 ^ 53).
Proof. exact double_binary. Qed.

(* One row with I = 1, a weak Q, and U, V given *)
Definition weak (uu v : R) : ndarr (rounded_real (nearest 53)) := {| nd_shape := [1; 4]%nat;
  nd_at := fun idx => (nth (nth 1 idx 0%nat) [1; tiny; uu; v] 0, 0) : cx (rounded_real (nearest 53)) |}.
Lemma weak_carries uu v : carries (K := rounded_real (nearest 53)) (weak uu v) [0%nat] (boxed flat_stokes) (stokes_of (K := rounded_real (nearest 53)) 1 tiny uu v).
Proof.
  assert (E : exists r sh, element_indices_and_shape flat_stokes = Ok (r, sh) /\ r = [("I", [0%nat]); ("Q", [1%nat]); ("U", [2%nat]); ("V", [3%nat])]).
  { eexists. eexists. split; vm_compute; reflexivity. }
  destruct E as (r & sh & E & Er). destruct (C51_schema_positions _ _ _ E) as (D & _).
  intros idx s y As Ey. apply D in As. rewrite Er in As.
  cbn in As. repeat (destruct As as [As|As]; [injection As as <- <-; cbn in Ey; injection Ey as <-; reflexivity|]). destruct As.
Qed.
Definition back_and_forth (uu v : R) := C124_linear_roundtrip (nearest 53) (/ 2 ^ 53) double_binary flat_stokes square_linear [1%nat] [4%nat] [2; 2]%nat (weak uu v) (fun _ => cx0) (fun _ => cx0)
  ex_rect_flat ex_distinct_flat ex_rect_square ex_distinct_square eq_refl (proj1 ex_names_flat) (proj2 ex_names_flat) (proj1 ex_names_square) (proj2 ex_names_square).
(* Weak polarisation is lost: the error of Q is not small against Q. *)
Theorem C124_weak_refuted : ~ forall is os fs di do_ (a : ndarr (rounded_real (nearest 53))) g g',
  rect (boxed is) di -> distinct (boxed is) -> rect (boxed os) do_ -> distinct (boxed os) -> nd_shape a = fs ++ di ->
  all_of (boxed is) STOKES -> only (boxed is) STOKES -> all_of (boxed os) LINEAR -> only (boxed os) LINEAR ->
  forall c b, convert (K := rounded_real (nearest 53)) (/ 2) g a is os = Ok c -> convert (K := rounded_real (nearest 53)) (/ 2) g' c os is = Ok b ->
  forall f i q uu v, nearest 53 i = i -> nearest 53 q = q -> nearest 53 uu = uu -> nearest 53 v = v ->
    carries (K := rounded_real (nearest 53)) a f (boxed is) (stokes_of (K := rounded_real (nearest 53)) i q uu v) ->
    exists i' q', carries (K := rounded_real (nearest 53)) b f (boxed is) (stokes_of (K := rounded_real (nearest 53)) i' q' uu v) /\ Rabs (q' - q) <= / 2 * Rabs q.
Proof.
  intros H. pose proof double_binary as B. pose proof (z0 _ _ B) as Z.
  destruct (to_linear _ _ B flat_stokes square_linear [1%nat] [4%nat] [2; 2]%nat (weak 0 0) (fun _ => cx0) ex_rect_flat ex_distinct_flat ex_rect_square ex_distinct_square
    eq_refl (proj1 ex_names_flat) (proj2 ex_names_square)) as (c & Ec & Sc & Vc).
  destruct (from_linear _ _ B square_linear flat_stokes [1%nat] [2; 2]%nat [4%nat] c (fun _ => cx0) ex_rect_square ex_distinct_square ex_rect_flat ex_distinct_flat
    Sc (proj1 ex_names_square) (proj2 ex_names_flat)) as (b & Eb & Sb & Vb).
  specialize (Vc [0%nat] 1 tiny 0 0 (weak_carries 0 0)).
  specialize (Vb [0%nat] (1, 0) (0, 0) (0, 0) (1, 0)).
  assert (Hc : carries (K := rounded_real (nearest 53)) c [0%nat] (boxed square_linear) (these LINEAR [(1, 0); (0, 0); (0, 0); (1, 0)])).
  { intros idx s x As Ex. apply (Vc idx s x As). apply (proj2 ex_names_square) in As.
    cbn in As. repeat (destruct As as [As|As]; [subst; cbn in Ex; cbn; rewrite ?Ropp_0, ?fl_plus_tiny, ?fl_less, ?Z; exact Ex|]). destruct As. }
  specialize (Vb Hc).
  destruct (H flat_stokes square_linear [1%nat] [4%nat] [2; 2]%nat (weak 0 0) (fun _ => cx0) (fun _ => cx0) ex_rect_flat ex_distinct_flat ex_rect_square ex_distinct_square
    eq_refl (proj1 ex_names_flat) (proj2 ex_names_flat) (proj1 ex_names_square) (proj2 ex_names_square) c b Ec Eb [0%nat] 1 tiny 0 0
    (fl_exact 1 fmt_1) (fl_exact tiny fmt_tiny) Z Z (weak_carries 0 0)) as (i' & q' & W & D).
  destruct (proj1 ex_names_flat "Q" ltac:(cbn; tauto)) as (idx & A).
  pose proof (Vb idx "Q" _ A eq_refl) as V1. pose proof (W idx "Q" _ A eq_refl) as V2. cbn in V1, V2. rewrite V1 in V2. injection V2 as V2.
  unfold Rminus in V2. rewrite Rplus_opp_r in V2. unfold Rdiv in V2. rewrite Rmult_0_l, Z in V2. subst q'.
  rewrite Rminus_0_l, Rabs_Ropp, Rabs_pos_eq in D by (rewrite tiny_val; lra). rewrite tiny_val in D. lra.
Qed.
(* The same row meets the bound of the round trip, and its U and V survive. *)
Example weak_within : exists c b, convert (K := rounded_real (nearest 53)) (/ 2) (fun _ => cx0) (weak tiny 1) flat_stokes square_linear = Ok c /\
  convert (K := rounded_real (nearest 53)) (/ 2) (fun _ => cx0) c square_linear flat_stokes = Ok b /\
  exists i' q', carries (K := rounded_real (nearest 53)) b [0%nat] (boxed flat_stokes) (stokes_of (K := rounded_real (nearest 53)) i' q' tiny 1) /\
  Rabs (i' - 1) <= gamma (/ 2 ^ 53) 2 * Rmax (Rabs 1) (Rabs tiny) /\ Rabs (q' - tiny) <= gamma (/ 2 ^ 53) 2 * Rmax (Rabs 1) (Rabs tiny).
Proof.
  destruct (back_and_forth tiny 1) as (c & b & Ec & Eb & _ & V). exists c, b. split; [exact Ec|]. split; [exact Eb|].
  exact (V [0%nat] 1 tiny tiny 1 (fl_exact tiny fmt_tiny) (fl_exact 1 fmt_1) (weak_carries tiny 1)).
Qed.
Print Assumptions C124_to_linear. Print Assumptions C124_to_circular. Print Assumptions C124_from_linear. Print Assumptions C124_from_circular.
Print Assumptions C124_linear_roundtrip. Print Assumptions C124_circular_roundtrip. Print Assumptions C124_double. Print Assumptions C124_weak_refuted.
