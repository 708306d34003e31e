(* C98: the script that predicts the visibilities of a sky model (rime/examples/predict.py). *)
From Coq Require Import Reals String Lia Permutation Lra.
From Verif Require Import Prelude CRing CplxR RimeModel RimeSpec CoordSpec SrcModel SrcSpec CohModel CohSpec PredictModel PredictSpec BeamModel BeamSpec DftModel
  PipeModel PipeSpec PipeProofs PipeProofs2 PipeProofs3 PipeProofs4.
Open Scope nat_scope.
Open Scope list_scope.

(* ---------- products of terms ---------- *)
(* 2x2 matrices: the matrix product of the brightness terms in the order given, times the other terms; one to three brightness terms *)
Theorem C98_product_matrix : forall (K : cops), claws K -> forall ns nr nf nc (args : list (@arg K)), Forall (fits true ns nr nf nc) args ->
  1 <= List.length (brights args) <= 3 -> existsb has_rows args = true ->
  exists o, baseline_jones_multiply 4 args = Ok o /\ t_shape o = [ns; nr; nf; 2; 2] /\
    forall s r f i j, i < 2 -> j < 2 -> t_at o [s; r; f; i; j] = cmul (factor args s r f) (matrix_product (brights args) s f i j).
Proof. intros K Hl. exact (product_full Hl). Qed.
(* one or two correlations: products of the elements *)
Theorem C98_product_vector : forall (K : cops), claws K -> forall corrs ns nr nf nc (args : list (@arg K)), corrs <> 4 -> Forall (fits false ns nr nf nc) args ->
  brights args <> [] -> existsb has_rows args = true ->
  exists o, baseline_jones_multiply corrs args = Ok o /\ t_shape o = [ns; nr; nf; nc] /\
    forall s r f c, t_at o [s; r; f; c] = cmul (factor args s r f) (vector_product (brights args) s f c).
Proof. intros K Hl. exact (product_vector Hl). Qed.
(* every other number of brightness terms, and products without rows, are refused *)
Theorem C98_product_matrix_refused : forall (K : cops) ns nr nf nc (args : list (@arg K)), Forall (fits true ns nr nf nc) args ->
  ~ (1 <= List.length (brights args) <= 3 /\ existsb has_rows args = true) -> baseline_jones_multiply 4 args = Raise ValueError.
Proof. intros K. exact product_full_refused. Qed.
Theorem C98_product_vector_refused : forall (K : cops) corrs ns nr nf nc (args : list (@arg K)), corrs <> 4 -> Forall (fits false ns nr nf nc) args ->
  ~ (brights args <> [] /\ existsb has_rows args = true) -> baseline_jones_multiply corrs args = Raise ValueError.
Proof. intros K. exact product_vector_refused. Qed.
Theorem C98_product_terms_refused : forall (K : cops) corrs (args : list (@arg K)),
  (exists t, In t args /\ (~ In (fst t) ["brightness"; "phase_delay"; "gauss_shape"; "spi"]%string \/
    (In (fst t) ["phase_delay"; "gauss_shape"]%string /\ List.length (t_shape (snd t)) <> 3) \/ (fst t = "spi"%string /\ List.length (t_shape (snd t)) <> 1) \/
    (fst t = "brightness"%string /\ corrs <> 4 /\ List.length (t_shape (snd t)) <> 3))) -> baseline_jones_multiply corrs args = Raise ValueError.
Proof. intros K. exact product_bad. Qed.
Theorem C98_product_sources_refused : forall (K : cops) corrs (args : list (@arg K)) t t', In t args -> In t' args ->
  hd_error (t_shape (snd t)) <> hd_error (t_shape (snd t')) -> exists e, baseline_jones_multiply corrs args = Raise e.
Proof. intros K. exact product_sources. Qed.

(* ---------- the visibilities of a sky model ---------- *)
(* no beam: MODEL_DATA is the sum over the sources, for every division of the rows into chunks and whatever the uninitialised memory holds *)
Theorem C98_model_data : forall u g freq0 sky chunks ms, types_ok (u_corrs u) (u_types u) -> u_beam u = None -> Forall known_source sky -> sky <> [] ->
  exists col, predict u g freq0 sky chunks ms = Ok col /\
    forall r f c, r < list_sum chunks -> f < u_nchan u -> c < u_corrs u -> col r f c = Ok (sky_sum (source_vis u freq0 ms r f c) sky).
Proof.
  intros u g f0 sky chunks ms (Hc & Hl & Nd & Inc) Hb Ks Ne.
  assert (X : forall lin, incl (u_types u) (codes lin) -> exists col, predict u g f0 sky chunks ms = Ok col /\
    forall r f c, r < list_sum chunks -> f < u_nchan u -> c < u_corrs u -> col r f c = Ok (sky_sum (source_vis u f0 ms r f c) sky)).
  { intros lin I. destruct (predict_ok u g f0 lin (fun _ _ _ _ _ => c0) sky Hc Hl Nd I Ks Ne chunks ms) as (col & E & V).
    - intros b Eb. congruence.
    - exists col. split; [exact E |]. intros r f c Hr Hf Hcc. rewrite (V r f c Hr Hf Hcc). unfold one. rewrite Hb. reflexivity. }
  destruct Inc as [I|I]; [exact (X true I) | exact (X false I)].
Qed.
(* with a beam and four correlations: every source between the terms of the two antennas of the row.  A term is the beam in the direction of
   the source times the feed rotation, both at the antenna's parallactic angle at the time of that row. *)
Theorem C98_model_data_beam : forall u g freq0 (linear : bool) b E sky chunks ms, u_corrs u = 4 -> List.length (u_types u) = 4 -> NoDup (u_types u) ->
  incl (u_types u) (if linear then linear_types else circular_types) -> u_beam u = Some b -> beam_ok b ->
  (forall l m chi nu c, beam_is b l m chi nu c (E l m chi nu c)) -> antennas_ok u ms (list_sum chunks) -> Forall known_source sky -> sky <> [] ->
  exists col, predict u g freq0 sky chunks ms = Ok col /\
    forall r f c, r < list_sum chunks -> f < u_nchan u -> c < 4 -> col r f c = Ok (sky_sum (corrupted_vis u freq0 linear E ms r f c) sky).
Proof.
  intros u g f0 lin b E sky chunks ms Hc Hl Nd I Hb Bo HE An Ks Ne.
  destruct (predict_ok u g f0 lin E sky) with (chunks := chunks) (ms := ms) as (col & Ec & V); auto.
  - rewrite Hc. exact Hl.
  - intros b' Eb. assert (b' = b) by congruence. subst. auto.
  - exists col. split; [exact Ec |]. intros r f c Hr Hf Hcc. rewrite (V r f c Hr Hf) by (rewrite Hc; exact Hcc). unfold one. rewrite Hb. reflexivity.
Qed.
(* the beam has exactly one value everywhere *)
Theorem C98_beam_value : forall b, beam_ok b -> exists E : R -> R -> R -> R -> nat -> RC, forall l m chi nu c z, beam_is b l m chi nu c z <-> z = E l m chi nu c.
Proof. exact beam_total. Qed.
(* the order of the sources in the file does not matter *)
Theorem C98_source_order : forall u g g' freq0 sky sky' chunks chunks' ms, types_ok (u_corrs u) (u_types u) ->
  (forall b, u_beam u = Some b -> u_corrs u = 4 /\ beam_ok b /\ antennas_ok u ms (list_sum chunks)) ->
  Forall known_source sky -> sky <> [] -> Permutation sky sky' -> list_sum chunks = list_sum chunks' ->
  exists col col', predict u g freq0 sky chunks ms = Ok col /\ predict u g' freq0 sky' chunks' ms = Ok col' /\
    forall r f c, r < list_sum chunks -> f < u_nchan u -> c < u_corrs u -> exists z, col r f c = Ok z /\ col' r f c = Ok z.
Proof.
  intros u g g' f0 sky sky' chunks chunks' ms (Hc & Hl & Nd & Inc) HB Ks Ne P Ech.
  assert (Ks' : Forall known_source sky') by (apply Forall_forall; intros s Hs; rewrite Forall_forall in Ks; apply Ks; apply (Permutation_in s (Permutation_sym P)); exact Hs).
  assert (Ne' : sky' <> []) by (intros ->; apply Permutation_sym, Permutation_nil in P; contradiction).
  assert (HE : exists E, forall b, u_beam u = Some b -> forall l m chi nu c, beam_is b l m chi nu c (E l m chi nu c)).
  { destruct (u_beam u) as [b|]; [|exists (fun _ _ _ _ _ => c0); discriminate]. destruct (HB b eq_refl) as (_ & Bo & _). destruct (beam_total b Bo) as (E & V).
    exists E. intros b' Eb. injection Eb as <-. intros l m chi nu c. apply V. reflexivity. }
  destruct HE as (E & HE).
  assert (Fi : fine u E ms (list_sum chunks)) by (intros b Eb; destruct (HB b Eb) as (A & B & C); auto).
  assert (Hlin : exists lin, incl (u_types u) (codes lin)) by (destruct Inc as [I|I]; [exists true | exists false]; exact I). destruct Hlin as (lin & I).
  destruct (predict_ok u g f0 lin E sky Hc Hl Nd I Ks Ne chunks ms Fi) as (col & Ec & V).
  rewrite Ech in Fi. destruct (predict_ok u g' f0 lin E sky' Hc Hl Nd I Ks' Ne' chunks' ms Fi) as (col' & Ec' & V').
  exists col, col'. split; [exact Ec |]. split; [exact Ec' |]. intros r f c Hr Hf Hcc.
  eexists. split; [apply V; assumption |]. rewrite V' by (rewrite <- ?Ech; assumption). f_equal. symmetry. apply sky_perm. exact P.
Qed.
(* --invert-uvw turns every visibility into the complex conjugate of the one with the feeds exchanged *)
Theorem C98_inverted : forall u g freq0 sky chunks ms, types_ok (u_corrs u) (u_types u) -> u_beam u = None -> Forall known_source sky -> sky <> [] ->
  exists col col', predict u g freq0 sky chunks ms = Ok col /\ predict (flipped u) g freq0 sky chunks ms = Ok col' /\
    forall r f c c', r < list_sum chunks -> f < u_nchan u -> c < u_corrs u -> c' < u_corrs u ->
      nth c' (u_types u) 0%Z = mirror (nth c (u_types u) 0%Z) -> exists z, col r f c = Ok z /\ col' r f c' = Ok (cconj z).
Proof.
  intros u g f0 sky chunks ms T Hb Ks Ne.
  destruct (C98_model_data u g f0 sky chunks ms T Hb Ks Ne) as (col & Ec & V).
  destruct (C98_model_data (flipped u) g f0 sky chunks ms T Hb Ks Ne) as (col' & Ec' & V').
  exists col, col'. split; [exact Ec |]. split; [exact Ec' |]. intros r f c c' Hr Hf Hcc Hc' M. eexists. split; [apply V; assumption |].
  rewrite V' by assumption. f_equal. apply sky_conj. intros s. destruct T as (_ & Hl & _ & [I|I]);
    [apply (source_flip u f0 ms r f c c' s true) | apply (source_flip u f0 ms r f c c' s false)]; auto; rewrite Hl; exact Hcc.
Qed.

(* ---------- what is refused ---------- *)
Theorem C98_unknown_source : forall u g freq0 sky chunks ms, Exists (fun s => ~ known_source s) sky -> predict u g freq0 sky chunks ms = Raise ValueError.
Proof. intros u g f0 sky chunks ms H. unfold predict. rewrite (parse_unknown f0 sky H). reflexivity. Qed.
Theorem C98_empty_sky : forall u g freq0 chunks ms, exists e, predict u g freq0 [] chunks ms = Raise e /\
  (u_corrs u = 4 -> e = AttributeErrorExn) /\ (u_corrs u <> 4 -> e = ValueError).
Proof.
  intros u g f0 chunks ms. rewrite predict_empty. eexists. split; [reflexivity |]. destruct (Nat.eqb_spec (u_corrs u) 4); split; intros; congruence.
Qed.
Theorem C98_correlations_refused : forall u g freq0 sky chunks ms, u_corrs u <> 1 -> u_corrs u <> 2 -> u_corrs u <> 4 -> Forall known_source sky -> sky <> [] ->
  exists col, predict u g freq0 sky chunks ms = Ok col /\ forall r f c, col r f c = Raise ValueError.
Proof. exact predict_bad. Qed.
Theorem C98_beam_refused : forall b types parang nants nsrc lm utime nchan freq garbage,
  List.length types <> 4 \/ (~ incl types linear_types /\ ~ incl types circular_types) ->
  dde_factory (Some b) types parang nants nsrc lm utime nchan freq garbage = Raise ValueError.
Proof. exact dde_bad. Qed.
(* the axes of the beam files are read correctly in exactly the two orders with M second *)
Theorem C98_axes : forall l m nu, Permutation [l; m; nu] [1; 2; 3] ->
  ((forall A (data : list nat -> A), correct_axes l m nu data (load_axes l m nu data)) <-> m = 2).
Proof. exact axes_ok. Qed.
Theorem C98_axes_refuted : ~ (forall l m nu, Permutation [l; m; nu] [1; 2; 3] -> forall A (data : list nat -> A), correct_axes l m nu data (load_axes l m nu data)).
Proof.
  intros H. assert (P : Permutation [2; 3; 1] [1; 2; 3]) by (apply Permutation_sym; apply (Permutation_cons_append [2; 3] 1)).
  assert (3 = 2) by (apply (axes_ok 2 3 1 P); exact (H 2 3 1 P)). discriminate.
Qed.

Print Assumptions C98_product_matrix.
Print Assumptions C98_product_vector.
Print Assumptions C98_product_matrix_refused.
Print Assumptions C98_product_vector_refused.
Print Assumptions C98_product_terms_refused.
Print Assumptions C98_product_sources_refused.
Print Assumptions C98_model_data.
Print Assumptions C98_model_data_beam.
Print Assumptions C98_beam_value.
Print Assumptions C98_source_order.
Print Assumptions C98_inverted.
Print Assumptions C98_unknown_source.
Print Assumptions C98_empty_sky.
Print Assumptions C98_correlations_refused.
Print Assumptions C98_beam_refused.
Print Assumptions C98_axes.
Print Assumptions C98_axes_refuted.

(* ---------- concrete cases ---------- *)
Definition ex_src (t : string) (i q : R) : source :=
  {| s_type := t; s_ra := 0; s_dec := 0; s_I := i; s_Q := q; s_U := 0; s_V := 0; s_freq0 := None; s_spi := None; s_ex := 0; s_ey := 0; s_pa := 0 |}%R.
Definition ex_sky : list source := [ex_src "pnt" 3 1; ex_src "GAU" 2 0]%R.
Definition ex_setup (beam : option beam_files) (types : list Z) : setup :=
  {| u_invert := false; u_beam := beam; u_parang := fun t a => t; u_nants := 2; u_centre := (0, 0)%R; u_nchan := 1; u_freq := fun _ => 1%R;
     u_corrs := List.length types; u_types := types |}.
Definition ex_rows : rows := {| m_nrow := 3; m_uvw := fun r i => INR (r + i); m_time := fun r => INR (Nat.div r 2); m_ant1 := fun _ => 0; m_ant2 := fun _ => 1 |}.
Definition ex_junk : junk := {| j_feed := fun _ _ _ => c0; j_spec := fun _ _ _ => 0%R; j_conv := fun _ => (0, 0)%R; j_gauss := fun _ _ _ => 0%R |}.
Example C98_ex_types : types_ok 2 [9; 12]%Z.
Proof. split; [auto |]. split; [reflexivity |]. split; [repeat constructor; cbn; intuition discriminate |]. left. intros z [<-|[<-|[]]]; cbn; auto. Qed.
Example C98_ex_known : Forall known_source ex_sky.
Proof. constructor; [right; reflexivity |]. constructor; [left; reflexivity | constructor]. Qed.
(* both sources lie at the phase centre: XX = I + Q = 4 + 2 in every row *)
Example C98_ex_column : exists col, predict (ex_setup None [9; 12]%Z) ex_junk 1%R ex_sky [2; 1] ex_rows = Ok col /\ forall r, r < 3 -> col r 0 0 = Ok ((6, 0)%R : RC).
Proof.
  destruct (C98_model_data (ex_setup None [9; 12]%Z) ex_junk 1%R ex_sky [2; 1] ex_rows C98_ex_types eq_refl C98_ex_known) as (col & E & V); [discriminate |].
  exists col. split; [exact E |]. intros r Hr. rewrite V by (cbn; lia). f_equal.
  assert (L : forall t i q, src_l (0, 0)%R (ex_src t i q) = 0%R) by (intros; unfold src_l, dot, direction, east; cbn; rewrite ?sin_0, ?cos_0; ring).
  assert (M : forall t i q, src_m (0, 0)%R (ex_src t i q) = 0%R) by (intros; unfold src_m, dot, direction, north; cbn; rewrite ?sin_0, ?cos_0; ring).
  assert (D : forall x y z nu, delay 0 0 x y z nu = 0%R).
  { intros. unfold delay, n1. replace (1 - 0 * 0 - 0 * 0)%R with 1%R by ring. rewrite sqrt_1. ring. }
  assert (P : forall x, (x * Rpower (1 / 1) 0 = x)%R) by (intros x; rewrite Rpower_O by lra; ring).
  assert (B : forall t i q, brightness_at 1 (ex_src t i q) 1 9 = ((i + q, 0)%R : RC)).
  { intros. unfold brightness_at, correlation, at_freq. change (casa_name 9) with (Some "XX"%string). cbn. rewrite !P. reflexivity. }
  cbn [sky_sum fold_right ex_sky]. unfold source_vis, kernel_at, kernel. cbn [ex_setup u_centre u_freq u_types nth]. rewrite !B, !L, !M, !D.
  rewrite Ropp_0, cis_0. cbn [ex_src s_type s_ex].
  change (String.eqb (lower "pnt") "gau") with false. change (String.eqb (lower "GAU") "gau") with true. unfold extent. cbn [String.eqb Ascii.eqb Bool.eqb].
  destruct (Req_EM_T 0 0) as [_|N]; [|contradiction]. apply injective_projections; cbn; ring.
Qed.
(* a beam *)
Definition ex_beam : beam_files :=
  {| bf_cube := {| b_lw := 2; b_mh := 2; b_nud := 2; b_at := fun i j k c => (INR (i + j + k + c), 0)%R |};
     bf_ext := fun _ k => match k with 0 => (-1)%R | _ => 1%R end; bf_nmap := 2; bf_map := fun i => INR (S i) |}.
Example C98_ex_beam_ok : beam_ok ex_beam.
Proof. split; [cbn; lia |]. split; [cbn; lia |]. split; [cbn; lia |]. split; [reflexivity |]. intros i Hi. apply lt_INR. lia. Qed.
Example C98_ex_beam : exists E col, predict (ex_setup (Some ex_beam) [5; 6; 7; 8]%Z) ex_junk 1%R ex_sky [2; 1] ex_rows = Ok col /\
  forall r c, r < 3 -> c < 4 -> col r 0 c = Ok (sky_sum (corrupted_vis (ex_setup (Some ex_beam) [5; 6; 7; 8]%Z) 1%R false E ex_rows r 0 c) ex_sky).
Proof.
  destruct (C98_beam_value ex_beam C98_ex_beam_ok) as (E & HE). exists E.
  destruct (C98_model_data_beam (ex_setup (Some ex_beam) [5; 6; 7; 8]%Z) ex_junk 1%R false ex_beam E ex_sky [2; 1] ex_rows) as (col & Ec & V);
    try reflexivity; try exact C98_ex_beam_ok; try exact C98_ex_known; try discriminate.
  - repeat constructor; cbn; intuition discriminate.
  - intros z H. exact H.
  - intros. apply HE. reflexivity.
  - intros r _. cbn. lia.
  - exists col. split; [exact Ec |]. intros r c Hr Hc. apply V; cbn; lia.
Qed.
(* a product of two brightness terms *)
Definition ex_bright : tens RC := {| t_shape := [1; 1; 2; 2]; t_at := fun idx => ((INR (nth 2 idx 0 + nth 3 idx 0), 0%R) : RC) |}.
Definition ex_phase : tens RC := {| t_shape := [1; 3; 1]; t_at := fun idx => ((INR (nth 1 idx 0), 0%R) : RC) |}.
Example C98_ex_product : let args := [("brightness", ex_bright); ("phase_delay", ex_phase); ("brightness", ex_bright)]%string in
  Forall (fits true 1 3 1 0) args /\ List.length (brights args) = 2 /\ existsb has_rows args = true.
Proof. split; [repeat constructor | split; reflexivity]. Qed.
Example C98_ex_four : let args := [("phase_delay", ex_phase); ("brightness", ex_bright); ("brightness", ex_bright); ("brightness", ex_bright); ("brightness", ex_bright)]%string in
  baseline_jones_multiply 4 args = Raise ValueError.
Proof. reflexivity. Qed.
Example C98_ex_inverted : nth 1 [9; 10; 11; 12]%Z 0%Z = mirror (nth 2 [9; 10; 11; 12]%Z 0%Z).
Proof. reflexivity. Qed.
(* the case of the letters of a source type does not matter: these eight spellings each, and no other *)
Theorem C98_source_types : forall s,
  (is_gaussian s <-> In (s_type s) ["gau"; "gaU"; "gAu"; "gAU"; "Gau"; "GaU"; "GAu"; "GAU"]%string) /\
  (is_point s <-> In (s_type s) ["pnt"; "pnT"; "pNt"; "pNT"; "Pnt"; "PnT"; "PNt"; "PNT"]%string).
Proof.
  assert (L : forall c l : Ascii.ascii, lower_ascii c = l -> In c [l; Ascii.ascii_of_nat (Ascii.nat_of_ascii l - 32)] \/ (Ascii.nat_of_ascii l < 97 \/ 122 < Ascii.nat_of_ascii l)).
  { intros c l <-. destruct c as [[] [] [] [] [] [] [] []]; vm_compute; tauto || (right; lia) || auto 10. }
  intros s. unfold is_gaussian, is_point. destruct s as [t]; cbn [s_type]. clear - L. split.
  - split.
    + destruct t as [|a [|b [|c [|d r]]]]; cbn [lower]; try discriminate. intros H. injection H as Ha Hb Hc.
      destruct (L _ _ Ha) as [[A|[A|[]]]|[A|A]]; try (vm_compute in A; lia);
      destruct (L _ _ Hb) as [[B|[B|[]]]|[B|B]]; try (vm_compute in B; lia);
      destruct (L _ _ Hc) as [[C|[C|[]]]|[C|C]]; try (vm_compute in C; lia); subst; vm_compute; tauto.
    + intros H. repeat destruct H as [<-|H]; try reflexivity. destruct H.
  - split.
    + destruct t as [|a [|b [|c [|d r]]]]; cbn [lower]; try discriminate. intros H. injection H as Ha Hb Hc.
      destruct (L _ _ Ha) as [[A|[A|[]]]|[A|A]]; try (vm_compute in A; lia);
      destruct (L _ _ Hb) as [[B|[B|[]]]|[B|B]]; try (vm_compute in B; lia);
      destruct (L _ _ Hc) as [[C|[C|[]]]|[C|C]]; try (vm_compute in C; lia); subst; vm_compute; tauto.
    + intros H. repeat destruct H as [<-|H]; try reflexivity. destruct H.
Qed.
Print Assumptions C98_source_types.
