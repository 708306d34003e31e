(* Proofs about the prediction script: the column of a dataset. *)
From Coq Require Import Reals String Lia Permutation Lra.
From Verif Require Import Prelude PreludeFacts CRing CplxR RimeModel RimeSpec RimeProofs CoordModel CoordSpec CoordProofs SrcModel SrcSpec SrcProofs SrcProofs2
  CohModel CohSpec CohProofs CohProofs2 CohProofs3 PredictModel PredictSpec PredictProofs BeamModel BeamSpec BeamProofs BeamProofs3 DftModel DftSpec DftProofs
  PipeModel PipeSpec PipeProofs PipeProofs2 PipeProofs3.
Open Scope nat_scope.
Open Scope list_scope.

Lemma locate_upper chunks : forall start i, start <= i < start + list_sum chunks ->
  forall s n, locate start chunks i = (s, n) -> s + n <= start + list_sum chunks.
Proof.
  induction chunks as [|k rest IH]; cbn [locate]; intros start i H s n E.
  - cbn in H. lia.
  - change (list_sum (k :: rest)) with (k + list_sum rest) in *.
    destruct (Nat.ltb_spec i (start + k)).
    + injection E as <- <-. lia.
    + specialize (IH (start + k) i ltac:(lia) s n E). lia.
Qed.

Section Data.
  Variables (u : setup) (g : junk) (f0 : R) (lin : bool) (E : R -> R -> R -> R -> nat -> RC) (sky : list source).
  Hypothesis Hc : u_corrs u = 1 \/ u_corrs u = 2 \/ u_corrs u = 4.
  Hypothesis Hlen : List.length (u_types u) = u_corrs u.
  Hypothesis Nd : NoDup (u_types u).
  Hypothesis Inc : incl (u_types u) (codes lin).
  Hypothesis Ks : Forall known_source sky.
  Hypothesis Ne : sky <> [].
  Definition fine (ms : rows) (n : nat) : Prop := forall b, u_beam u = Some b -> beam_ok b /\ u_corrs u = 4 /\ antennas_ok u ms n /\
    forall l0 m chi nu c, beam_is b l0 m chi nu c (E l0 m chi nu c).
  Notation parsed := (map (parse_row f0) (filter (fun s => negb (gau s)) sky), map (parse_row f0) (filter gau sky)).
  Definition pick (v : vis_arr RC) (r f c : nat) : RC := if Nat.eqb (u_corrs u) 4 then v_at v r f (c / 2) (c mod 2) else v_at v r f c 0.

  Lemma data_ok ms : 0 < m_nrow ms -> fine ms (m_nrow ms) -> exists out, model_data u g parsed ms = Ok out /\
    forall r f c, r < m_nrow ms -> f < u_nchan u -> c < u_corrs u -> out r f c = sky_sum (one u f0 lin ms E r f c) sky.
  Proof.
    intros Hn HB.
    assert (X : forall (k : bool) l, (forall s, In s l -> gau s = k) -> l <> [] -> exists v, vis_factory u g k (map (parse_row f0) l) ms = Ok v /\
      forall r f c, r < m_nrow ms -> f < u_nchan u -> c < u_corrs u -> pick v r f c = sky_sum (one u f0 lin ms E r f c) l).
    { intros k l G N. exact (vis_ok u g f0 lin k l ms Hc Hlen Nd Inc G Hn E HB). }
    assert (P := X false (filter (fun s => negb (gau s)) sky)). assert (Q := X true (filter gau sky)).
    assert (Sp : forall f : source -> RC, sky_sum f sky = cadd (sky_sum f (filter (fun s => negb (gau s)) sky)) (sky_sum f (filter gau sky))) by (intros; apply sky_split).
    assert (Hp : forall s, In s (filter (fun s => negb (gau s)) sky) -> gau s = false) by (intros s H; apply filter_In in H; destruct H as (_ & H); destruct (gau s); [discriminate | reflexivity]).
    assert (Hq : forall s, In s (filter gau sky) -> gau s = true) by (intros s H; apply filter_In in H; tauto).
    assert (Em : filter (fun s => negb (gau s)) sky = [] -> filter gau sky = [] -> False).
    { intros A B. destruct sky as [|s r]; [contradiction |]. cbn in A, B. destruct (gau s); discriminate. }
    specialize (P Hp). specialize (Q Hq). clear X Hp Hq.
    destruct (filter (fun s => negb (gau s)) sky) as [|x p]; destruct (filter gau sky) as [|y q].
    - exfalso. auto.
    - destruct Q as (v & Ev & V); [discriminate |]. unfold model_data, groups. cbn [fst snd map app add_groups]. cbn [map] in Ev. rewrite Ev. cbn [bind].
      eexists. split; [reflexivity |]. intros r f c Hr Hf Hcc. rewrite Sp. cbn [sky_sum fold_right]. rewrite cadd0l. specialize (V r f c Hr Hf Hcc).
      unfold pick in V. destruct (Nat.eqb (u_corrs u) 4); exact V.
    - destruct P as (v & Ev & V); [discriminate |]. unfold model_data, groups. cbn [fst snd map app add_groups]. cbn [map] in Ev. rewrite Ev. cbn [bind].
      eexists. split; [reflexivity |]. intros r f c Hr Hf Hcc. rewrite Sp. rewrite (cadd0r (sky_sum _ (x :: p))). specialize (V r f c Hr Hf Hcc).
      unfold pick in V. destruct (Nat.eqb (u_corrs u) 4); exact V.
    - destruct P as (v & Ev & V); [discriminate |]. destruct Q as (v' & Ev' & V'); [discriminate |].
      unfold model_data, groups. cbn [fst snd map app add_groups]. cbn [map] in Ev, Ev'. rewrite Ev. cbn [bind]. rewrite Ev'. cbn [bind].
      eexists. split; [reflexivity |]. intros r f c Hr Hf Hcc. rewrite Sp. specialize (V r f c Hr Hf Hcc). specialize (V' r f c Hr Hf Hcc).
      rewrite <- V, <- V'. unfold pick. destruct (Nat.eqb (u_corrs u) 4); reflexivity.
  Qed.

  Lemma predict_ok chunks ms : fine ms (list_sum chunks) -> exists col, predict u g f0 sky chunks ms = Ok col /\
    forall r f c, r < list_sum chunks -> f < u_nchan u -> c < u_corrs u -> col r f c = Ok (sky_sum (one u f0 lin ms E r f c) sky).
  Proof.
    intros HB. unfold predict. rewrite parse_ok by exact Ks. cbn [bind].
    assert (Gn : groups parsed <> []).
    { unfold groups. cbn [fst snd]. destruct sky as [|s r]; [contradiction |]. cbn. destruct (gau s); cbn; [|discriminate]. destruct (map _ (filter _ r)); discriminate. }
    destruct (groups parsed) eqn:Eg; [contradiction |]. clear Eg Gn. eexists. split; [reflexivity |]. intros r f c Hr Hf Hcc. cbv beta.
    destruct (locate 0 chunks r) as (start, n) eqn:El.
    destruct (locate_spec chunks 0 r ltac:(lia) _ _ El) as (L1 & L2). assert (L3 := locate_upper chunks 0 r ltac:(lia) _ _ El).
    destruct (data_ok (from_row ms start n)) as (out & Eo & V).
    - cbn. lia.
    - intros b Eb. destruct (HB b Eb) as (A & B & C & D). repeat (split; [assumption |]). split; [|exact D]. intros i Hi. cbn [from_row m_ant1 m_ant2]. cbn in Hi. apply C. lia.
    - rewrite Eo. cbn [bind]. f_equal. rewrite V by (cbn; lia).
      assert (X : forall s, one u f0 lin (from_row ms start n) E (r - start) f c s = one u f0 lin ms E r f c s).
      { intros s. unfold one, corrupted_vis, antenna_of, source_vis, kernel_at, coord. cbn [from_row m_uvw m_time m_ant1 m_ant2].
        replace (start + (r - start)) with r by lia. reflexivity. }
      clear - X. induction sky as [|s l IH]; [reflexivity |]. cbn [sky_sum fold_right]. rewrite X. f_equal. exact IH.
  Qed.
End Data.

(* ---------- the sign of the coordinates ---------- *)
Lemma cconj_mul (x y : RC) : cconj (cmul x y) = cmul (cconj x) (cconj y).
Proof. destruct x, y. cbn. f_equal; ring. Qed.
Lemma kernel_flip st ms r f s : kernel_at (flipped st) ms r f s = cconj (kernel_at st ms r f s).
Proof.
  assert (X : forall i, coord (u_invert (flipped st)) ms r i = (- coord (u_invert st) ms r i)%R).
  { intros i. unfold coord, flipped. cbn [u_invert]. destruct (u_invert st); cbn [negb]; ring. }
  unfold kernel_at. rewrite !X. cbn [flipped u_centre u_freq].
  generalize (coord (u_invert st) ms r 0) (coord (u_invert st) ms r 1) (coord (u_invert st) ms r 2) (u_freq st f). intros x y z nu.
  unfold kernel. rewrite cconj_mul. f_equal.
  - rewrite <- cis_opp. f_equal. unfold delay. ring.
  - assert (Y : forall k a b c, extent k a b c (- x) (- y) nu = extent k a b c x y nu).
    { intros. unfold extent. destruct (String.eqb k "POINT"); [reflexivity |]. destruct (Req_EM_T a 0); [reflexivity |]. unfold envelope. cbv zeta.
      f_equal. f_equal. f_equal. unfold Rdiv. ring. }
    rewrite Y. unfold ofR. cbn. apply injective_projections; cbn; ring.
Qed.
Lemma mirror_bright f0 s nu z lin : In z (codes lin) -> brightness_at f0 s nu (mirror z) = cconj (brightness_at f0 s nu z).
Proof.
  unfold brightness_at, correlation. destruct lin; intros [<-|[<-|[<-|[<-|[]]]]]; cbn [mirror];
    repeat match goal with |- context [casa_name ?z] => let v := eval vm_compute in (casa_name z) in change (casa_name z) with v end;
    apply injective_projections; cbn; ring.
Qed.
Lemma source_flip st f0 ms r f c c' s lin : c < List.length (u_types st) -> incl (u_types st) (codes lin) -> nth c' (u_types st) 0%Z = mirror (nth c (u_types st) 0%Z) ->
  source_vis (flipped st) f0 ms r f c' s = cconj (source_vis st f0 ms r f c s).
Proof.
  intros Hc Inc M. unfold source_vis. rewrite kernel_flip, cconj_mul. cbn [flipped u_freq u_types]. rewrite M. f_equal.
  apply (mirror_bright f0 s _ _ lin). apply Inc. apply nth_In. exact Hc.
Qed.
Lemma sky_conj (f f' : source -> RC) l : (forall s, f' s = cconj (f s)) -> sky_sum f' l = cconj (sky_sum f l).
Proof.
  intros H. induction l as [|s r IH]; [apply injective_projections; cbn; ring |]. cbn [sky_sum fold_right]. fold (sky_sum f' r). fold (sky_sum f r). rewrite H, IH.
  destruct (f s), (sky_sum f r). cbn. f_equal; ring.
Qed.

(* ---------- the beam ---------- *)
Lemma beam_total b : beam_ok b -> exists E : R -> R -> R -> R -> nat -> RC, forall l m chi nu c z, beam_is b l m chi nu c z <-> z = E l m chi nu c.
Proof.
  intros Bo. assert (Bo' := Bo). destruct Bo as (B1 & B2 & B3 & B4 & B5).
  exists (fun l m chi nu c => let '(sc, w, k) := freq_grid_interp (bf_nmap b) (bf_map b) nu in
    let x := axis_pos (b_lw (bf_cube b)) (bf_ext b 0 0) (bf_ext b 0 1) (beam_l l m sc 0 0 chi 1) in
    let y := axis_pos (b_mh (bf_cube b)) (bf_ext b 1 0) (bf_ext b 1 1) (beam_m l m sc 0 0 chi 1) in
    with_amp (tri_amp (bf_cube b) x y w (Z.to_nat k) c) (tri_val (bf_cube b) x y w (Z.to_nat k) c)).
  intros l m chi nu c z.
  assert (X : 2 <= bf_nmap b) by lia.
  destruct (freq_grid_spec (bf_nmap b) (bf_map b) nu X B5) as (sc & w & k & E & P & Hk). rewrite E. rewrite Nat2Z.id.
  assert (T : beam_is b l m chi nu c (let x := axis_pos (b_lw (bf_cube b)) (bf_ext b 0 0) (bf_ext b 0 1) (beam_l l m sc 0 0 chi 1) in
    let y := axis_pos (b_mh (bf_cube b)) (bf_ext b 1 0) (bf_ext b 1 1) (beam_m l m sc 0 0 chi 1) in
    with_amp (tri_amp (bf_cube b) x y w k c) (tri_val (bf_cube b) x y w k c))).
  { exists sc, w, k. split; [exact P |]. reflexivity. }
  split; [intros H; eapply beam_unique; eassumption | intros ->; exact T].
Qed.
Lemma pol_bad types : ~ incl types linear_types -> ~ incl types circular_types -> pol_type_of types = Raise ValueError.
Proof.
  intros A B. assert (X : forall l, within_types types l = true -> incl types l).
  { intros l H z Hz. unfold within_types in H. rewrite forallb_forall in H. specialize (H z Hz). apply existsb_exists in H. destruct H as (y & Hy & Ey).
    apply Z.eqb_eq in Ey. subst. exact Hy. }
  unfold pol_type_of. fold linear_types circular_types. destruct (within_types types linear_types) eqn:E1; [apply X in E1; contradiction |].
  destruct (within_types types circular_types) eqn:E2; [apply X in E2; contradiction |]. reflexivity.
Qed.
Lemma dde_bad b types parang nants nsrc lm utime nchan freq gb :
  List.length types <> 4 \/ (~ incl types linear_types /\ ~ incl types circular_types) ->
  dde_factory (Some b) types parang nants nsrc lm utime nchan freq gb = Raise ValueError.
Proof.
  intros H. unfold dde_factory. destruct (Nat.eqb_spec (List.length types) 4) as [E|E]; cbn [negb]; [|reflexivity].
  destruct H as [H|(A & B)]; [contradiction |]. rewrite pol_bad by assumption. reflexivity.
Qed.

(* ---------- what the script refuses ---------- *)
Lemma schema_bad corrs types : corrs <> 1 -> corrs <> 2 -> corrs <> 4 -> corr_schema corrs types = Raise ValueError.
Proof.
  intros A B C. unfold corr_schema. destruct (Nat.eqb_spec corrs 4); [contradiction |]. destruct (Nat.eqb_spec corrs 2); [contradiction |].
  destruct (Nat.eqb_spec corrs 1); [contradiction | reflexivity].
Qed.
Lemma vis_bad u g k src ms : u_corrs u <> 1 -> u_corrs u <> 2 -> u_corrs u <> 4 -> vis_factory u g k src ms = Raise ValueError.
Proof.
  intros A B C. unfold vis_factory.
  match goal with |- context [radec_to_lm ?n 2 ?r (Some ?c)] => destruct (lm_all n r c) as (lm & El & _) end. rewrite El. cbn [bind].
  match goal with |- context [phase_delay ?n ?r ?f ?l ?v ?q "fourier"] => destruct (phase_delay_fourier n r f l v q) as (ph & Ep & _) end. rewrite Ep. cbn [bind].
  match goal with |- context [spectral_model ?n ?f 1 (Some 4) (Some 4) ?a ?b ?c ?d ?e ?h] =>
    destruct (spectral_value n f 1 (Some 4) a b c d e h) as (st & Es & _); [discriminate | discriminate | intros p _; do 3 eexists; split; constructor |] end.
  rewrite Es. cbn [bind]. rewrite schema_bad by assumption. reflexivity.
Qed.
Lemma groups_nonempty f0 sky parsed : parse_sky_model f0 sky = Ok parsed -> sky <> [] -> groups parsed <> [].
Proof.
  intros H Ne. destruct sky as [|s r]; [contradiction |]. cbn [parse_sky_model] in H.
  destruct (String.eqb _ _); [|destruct (String.eqb _ _); [|discriminate]].
  - destruct (parse_sky_model f0 r) as [(p, q)|e]; [|discriminate]. injection H as <-. unfold groups. cbn [fst snd]. destruct p; discriminate.
  - destruct (parse_sky_model f0 r) as [(p, q)|e]; [|discriminate]. injection H as <-. discriminate.
Qed.
Lemma predict_bad u g f0 sky chunks ms : u_corrs u <> 1 -> u_corrs u <> 2 -> u_corrs u <> 4 -> Forall known_source sky -> sky <> [] ->
  exists col, predict u g f0 sky chunks ms = Ok col /\ forall r f c, col r f c = Raise ValueError.
Proof.
  intros A B C Ks Ne. unfold predict. assert (Ep := parse_ok f0 sky Ks). assert (Gn := groups_nonempty _ _ _ Ep Ne). rewrite Ep. cbn [bind].
  destruct (groups _) as [|(k, src) gs] eqn:Eg; [contradiction |]. eexists. split; [reflexivity |]. intros r f c. cbv beta.
  destruct (locate 0 chunks r) as (st, n). unfold model_data. rewrite Eg. cbn [add_groups]. rewrite vis_bad by assumption. reflexivity.
Qed.
Lemma predict_empty u g f0 chunks ms : predict u g f0 [] chunks ms = Raise (if Nat.eqb (u_corrs u) 4 then AttributeErrorExn else ValueError).
Proof. reflexivity. Qed.

(* ---------- axes ---------- *)
Lemma axes_ok l m nu : Permutation [l; m; nu] [1; 2; 3] ->
  ((forall A (data : list nat -> A), correct_axes l m nu data (load_axes l m nu data)) <-> m = 2).
Proof.
  intros P. assert (R : forall x, In x [l; m; nu] -> x = 1 \/ x = 2 \/ x = 3).
  { intros x H. apply (Permutation_in x P) in H. cbn in H. intuition. }
  assert (Nd : NoDup [l; m; nu]) by (apply (Permutation_NoDup (Permutation_sym P)); repeat constructor; cbn; intuition discriminate).
  inversion Nd as [|? ? N1 Nd1]. inversion Nd1 as [|? ? N2 Nd2]. subst. cbn in N1, N2.
  assert (Hl := R l ltac:(cbn; auto)). assert (Hm := R m ltac:(cbn; auto)). assert (Hu := R nu ltac:(cbn; auto)). clear R P Nd Nd1 Nd2.
  split.
  - intros H. specialize (H (list nat) (fun x => x) 0 1 2). unfold load_axes, transpose3 in H. cbn [map fst snd] in H.
    destruct Hm as [-> | [-> | ->]]; [| reflexivity |]; (destruct Hl as [-> | [-> | ->]]; destruct Hu as [-> | [-> | ->]]; cbn in H; solve [discriminate | exfalso; intuition]).
  - intros -> A data i j k. unfold load_axes, transpose3. f_equal. destruct Hl as [-> | [-> | ->]]; destruct Hu as [-> | [-> | ->]]; cbn; solve [reflexivity | exfalso; intuition].
Qed.

(* ---------- arrays whose sizes do not agree ---------- *)
Section Clash.
  Context {K : cops}.
  Lemma size_of_app l (a b : list (string * nat)) : size_of l (a ++ b) = match size_of l a with Some n => Some n | None => size_of l b end.
  Proof. induction a as [|(l', n) a IH]; [reflexivity |]. cbn. destruct (String.eqb l l'); [reflexivity | exact IH]. Qed.
  Lemma sizes_seen labels : forall seen l m n, size_of l seen = Some m -> In (l, n) labels -> n <> m -> sizes_of labels seen = Raise ValueError.
  Proof.
    induction labels as [|(l', k) r IH]; intros seen l m n S I N; [destruct I |]. cbn [sizes_of].
    destruct I as [I|I].
    - injection I as -> ->. rewrite S. apply Nat.eqb_neq in N. rewrite N. reflexivity.
    - destruct (size_of l' seen) as [q|] eqn:E.
      + destruct (Nat.eqb k q); [apply (IH _ l m n); assumption | reflexivity].
      + apply (IH _ l m n); [rewrite size_of_app, S; reflexivity | exact I | exact N].
  Qed.
  Lemma sizes_clash labels : forall seen l m n, In (l, m) labels -> In (l, n) labels -> m <> n -> sizes_of labels seen = Raise ValueError.
  Proof.
    induction labels as [|(l', k) r IH]; intros seen l m n Im In' N; [destruct Im |].
    destruct Im as [Im|Im]; destruct In' as [Jn|Jn]; try congruence.
    - injection Im as -> ->. cbn [sizes_of]. destruct (size_of l seen) as [q|] eqn:E.
      + destruct (Nat.eqb_spec m q) as [->|]; [|reflexivity]. apply (sizes_seen r seen l q n); auto.
      + apply (sizes_seen r _ l m n); auto. rewrite size_of_app, E. cbn. rewrite String.eqb_refl. reflexivity.
    - injection Jn as -> ->. cbn [sizes_of]. destruct (size_of l seen) as [q|] eqn:E.
      + destruct (Nat.eqb_spec n q) as [->|]; [|reflexivity]. apply (sizes_seen r seen l q m); auto.
      + apply (sizes_seen r _ l n m); auto. rewrite size_of_app, E. cbn. rewrite String.eqb_refl. reflexivity.
    - cbn [sizes_of]. destruct (size_of l' seen) as [q|]; [destruct (Nat.eqb k q); [|reflexivity] |]; apply (IH _ l m n); assumption.
  Qed.
  Lemma term_head name corrs i sch j : term_schema name corrs i = Some (sch, j) -> exists r, sch = "s"%string :: r.
  Proof.
    unfold term_schema. destruct (String.eqb name "brightness"); [destruct (Nat.eqb corrs 4); intros H; injection H as <- _; eexists; reflexivity |].
    destruct (String.eqb name "phase_delay"); [intros H; injection H as <- _; eexists; reflexivity |].
    destruct (String.eqb name "spi"); [intros H; injection H as <- _; eexists; reflexivity |].
    destruct (String.eqb name "gauss_shape"); [intros H; injection H as <- _; eexists; reflexivity | discriminate].
  Qed.
  Lemma schemas_heads corrs (args : list (@arg K)) : forall i ins j, input_schemas corrs i args = Ok (ins, j) ->
    forall t, In t args -> exists n, hd_error (t_shape (snd t)) = Some n /\ In ("s"%string, n) (concat (map (fun p => combine (fst p) (t_shape (snd p))) (combine ins (map snd args)))).
  Proof.
    induction args as [|(name, a) rest IH]; intros i ins j H t I; [destruct I |]. cbn [input_schemas] in H.
    destruct (term_schema name corrs i) as [(sch, i')|] eqn:Et; [|discriminate].
    destruct (Nat.eqb_spec (List.length sch) (List.length (t_shape a))) as [El|]; cbn [negb] in H; [|discriminate].
    destruct (input_schemas corrs i' rest) as [(more, last)|] eqn:Er; [|discriminate]. cbn [bind] in H. injection H as <- <-.
    cbn [map combine concat fst snd]. destruct I as [<-|I].
    - destruct (term_head _ _ _ _ _ Et) as (r & ->). destruct (t_shape a) as [|n sh] eqn:Es; [discriminate |]. exists n. cbn [snd]. rewrite Es. split; [reflexivity |].
      cbn. left. reflexivity.
    - destruct (IH _ _ _ Er t I) as (n & Hn & In'). exists n. split; [exact Hn |]. apply in_or_app. right. exact In'.
  Qed.
  Lemma product_sources corrs (args : list (@arg K)) t t' : In t args -> In t' args -> hd_error (t_shape (snd t)) <> hd_error (t_shape (snd t')) ->
    exists e, baseline_jones_multiply corrs args = Raise e.
  Proof.
    intros I I' N. unfold baseline_jones_multiply. destruct (input_schemas corrs 0 args) as [(ins, j)|e] eqn:E; [|exists e; reflexivity]. cbn [bind].
    destruct (output_schema corrs j) as [o|e]; [|exists e; reflexivity]. cbn [bind]. unfold einsum.
    destruct (negb _); [eexists; reflexivity |].
    destruct (schemas_heads _ _ _ _ _ E t I) as (n & Hn & A). destruct (schemas_heads _ _ _ _ _ E t' I') as (n' & Hn' & A').
    rewrite (sizes_clash _ [] _ _ _ A A'); [eexists; reflexivity |]. congruence.
  Qed.
End Clash.
