(* Proofs about the prediction script: the visibilities of one chunk of rows, and of a dataset in any chunks. *)
From Coq Require Import Reals String Lia Permutation Lra.
From Verif Require Import Prelude PreludeFacts CRing CplxR RimeModel RimeSpec RimeProofs CoordModel CoordSpec CoordProofs SrcModel SrcSpec SrcProofs SrcProofs2
  CohModel CohSpec CohProofs CohProofs2 CohProofs3 PredictModel PredictSpec PredictProofs BeamModel BeamSpec BeamProofs BeamProofs3 DftModel DftSpec PipeModel PipeSpec PipeProofs PipeProofs2.
Open Scope nat_scope.
Open Scope list_scope.

Lemma lm_all n radec pc : exists lm, radec_to_lm n 2 radec (Some pc) = Ok lm /\ forall s, s < n ->
  lm s 0 = dot (direction (radec s 0) (radec s 1)) (east (fst pc)) /\ lm s 1 = dot (direction (radec s 0) (radec s 1)) (north (fst pc) (snd pc)).
Proof.
  destruct (radec_to_lm n 2 radec (Some pc)) as [lm|e] eqn:E.
  - exists lm. split; [reflexivity |]. intros s Hs. destruct (lm_rows n radec (Some pc) s Hs) as (o & Eo & V). rewrite E in Eo. injection Eo as <-. exact V.
  - unfold radec_to_lm in E. cbn in E. destruct pc. discriminate.
Qed.

Definition dsrc : source := {| s_type := EmptyString; s_ra := 0; s_dec := 0; s_I := 0; s_Q := 0; s_U := 0; s_V := 0; s_freq0 := None; s_spi := None; s_ex := 0; s_ey := 0; s_pa := 0 |}%R.

Section Vis.
  Variables (u : setup) (g : junk) (f0 : R) (lin : bool) (gauss : bool) (l : list source) (ms : rows).
  Hypothesis Hc : u_corrs u = 1 \/ u_corrs u = 2 \/ u_corrs u = 4.
  Hypothesis Hlen : List.length (u_types u) = u_corrs u.
  Hypothesis Nd : NoDup (u_types u).
  Hypothesis Inc : incl (u_types u) (codes lin).
  Hypothesis Hg : forall s, In s l -> gau s = gauss.
  Hypothesis Hn : 0 < m_nrow ms.
  Notation n := (List.length l).
  Notation src := (map (parse_row f0) l).
  Definition s_ (i : nat) : source := nth i l dsrc.
  Definition full : bool := Nat.eqb (u_corrs u) 4.

  Lemma src_nth i : i < n -> nth i src no_row = parse_row f0 (s_ i).
  Proof. intros H. rewrite (nth_indep _ no_row (parse_row f0 dsrc)) by (rewrite map_length; exact H). apply map_nth. Qed.

  Definition uvw_ : arr2 R := if u_invert u then fun r i => (- m_uvw ms r i)%R else m_uvw ms.
  Lemma uvw_coord r i : uvw_ r i = coord (u_invert u) ms r i.
  Proof. unfold uvw_, coord. destruct (u_invert u); reflexivity. Qed.

  (* the array of coherencies *)
  Lemma jones_ok : exists lm phase st sc b jo,
    radec_to_lm n 2 (fun s i => match i with 0 => fst (w_radec (nth s src no_row)) | _ => snd (w_radec (nth s src no_row)) end) (Some (u_centre u)) = Ok lm /\
    (forall s, s < n -> lm s 0 = src_l (u_centre u) (s_ s) /\ lm s 1 = src_m (u_centre u) (s_ s)) /\
    phase_delay n (m_nrow ms) (u_nchan u) lm uvw_ (u_freq u) "fourier" = Ok phase /\
    spectral_model n (u_nchan u) 1 (Some 4) (Some 4) (fun s => w_stokes (nth s src no_row)) (fun s => w_spi (nth s src no_row)) (fun s => w_ref (nth s src no_row))
      (u_freq u) (BOne (BInt 0)) (j_spec g) = Ok st /\
    corr_schema (u_corrs u) (u_types u) = Ok sc /\
    convert (K := RR) (1 / 2)%R (j_conv g) {| nd_shape := [n; u_nchan u; 4]; nd_at := fun idx => ((st (nth 0 idx 0) (nth 1 idx 0) (nth 2 idx 0), 0%R) : cx RR) |}
      stokes_list sc = Ok b /\
    baseline_jones_multiply (K := RC) (u_corrs u)
      ([("phase_delay"%string, arr3_tens (fun z : RC => z) n (m_nrow ms) (u_nchan u) phase)] ++
       (if gauss then [("gauss_shape"%string, arr3_tens ofR n (m_nrow ms) (u_nchan u)
                       (gaussian n (m_nrow ms) (u_nchan u) uvw_ (u_freq u) (fun s => w_shape (nth s src no_row)) (j_gauss g)))] else []) ++
       [("brightness"%string, {| t_shape := nd_shape b; t_at := fun idx => (nd_at b idx : RC) |})]) = Ok jo /\
    t_shape jo = [n; m_nrow ms; u_nchan u] ++ dims (u_corrs u) /\
    forall s r f c, s < n -> r < m_nrow ms -> f < u_nchan u -> c < u_corrs u ->
      t_at jo ([s; r; f] ++ pos (u_corrs u) c) = cmul (kernel_at u ms r f (s_ s)) (brightness_at f0 (s_ s) (u_freq u f) (nth c (u_types u) 0%Z)).
  Proof.
    destruct (lm_all n (fun s i => match i with 0 => fst (w_radec (nth s src no_row)) | _ => snd (w_radec (nth s src no_row)) end) (u_centre u)) as (lm & El & Vl).
    destruct (phase_delay_fourier n (m_nrow ms) (u_nchan u) lm uvw_ (u_freq u)) as (phase & Ep & Vp).
    destruct (spectral_value n (u_nchan u) 1 (Some 4) (fun s => w_stokes (nth s src no_row)) (fun s => w_spi (nth s src no_row)) (fun s => w_ref (nth s src no_row))
      (u_freq u) (BOne (BInt 0)) (j_spec g)) as (st & Es & Vs); [discriminate | discriminate | intros p _; do 3 eexists; split; constructor |].
    destruct (brightness_ok (u_corrs u) (u_types u) lin Hc Hlen Nd Inc (1 / 2)%R (j_conv g) n (u_nchan u) st) as (sc & b & Ec & Eb & Sb & Vb).
    set (ga := gaussian n (m_nrow ms) (u_nchan u) uvw_ (u_freq u) (fun s => w_shape (nth s src no_row)) (j_gauss g)).
    set (args := [("phase_delay"%string, arr3_tens (fun z : RC => z) n (m_nrow ms) (u_nchan u) phase)] ++
       (if gauss then [("gauss_shape"%string, arr3_tens ofR n (m_nrow ms) (u_nchan u) ga)] else []) ++
       [("brightness"%string, {| t_shape := nd_shape b; t_at := fun idx => (nd_at b idx : RC) |})]).
    assert (Fl : forall s, s < n -> lm s 0 = src_l (u_centre u) (s_ s) /\ lm s 1 = src_m (u_centre u) (s_ s)).
    { intros s H. destruct (Vl s H) as (A & B). rewrite src_nth in A, B by exact H. split; [exact A | exact B]. }
    assert (Fk : forall s r f, s < n -> r < m_nrow ms -> f < u_nchan u -> factor (K := RC) args s r f = kernel_at u ms r f (s_ s)).
    { intros s r f Hs Hr Hf. assert (G : gau (s_ s) = gauss) by (apply Hg; apply nth_In; exact Hs).
      unfold kernel_at, kernel. fold (gau (s_ s)). rewrite G. rewrite <- !uvw_coord. destruct (Fl s Hs) as (<- & <-).
      unfold args. destruct gauss; cbn [app factor is_bright has_rows fst snd String.eqb Ascii.eqb Bool.eqb orb arr3_tens t_at nth];
        rewrite (Vp s r f Hs Hr Hf).
      - unfold ga. destruct (gaussian_envelope n (m_nrow ms) (u_nchan u) uvw_ (u_freq u) (fun s => w_shape (nth s src no_row)) (j_gauss g) s r f Hs Hr Hf) as (A & B).
        rewrite src_nth in A, B by exact Hs. unfold extent. cbn [String.eqb Ascii.eqb Bool.eqb].
        change (w_shape (parse_row f0 (s_ s)) 0) with (s_ex (s_ s)) in A, B.
        assert (X : forall z : RC, cmul z c1 = z) by (intros (x, y); cbn; f_equal; ring).
        destruct (Req_EM_T (s_ex (s_ s)) 0) as [Z|Z]; [rewrite (B Z) | rewrite (A Z)]; rewrite X; reflexivity.
      - reflexivity. }
    assert (Fb : forall s f c, s < n -> f < u_nchan u -> c < u_corrs u ->
      nd_at b ([s; f] ++ pos (u_corrs u) c) = brightness_at f0 (s_ s) (u_freq u f) (nth c (u_types u) 0%Z)).
    { intros s f c Hs Hf Hcc. specialize (Vb s f c Hcc). unfold brightness_at.
      assert (X : forall p, p < 4 -> st s f p = at_freq f0 (s_ s) (u_freq u f) (stokes_row (s_ s) p)).
      { intros p Hp. rewrite (Vs s f p (BInt 0) false power_law Hs Hf Hp (at_one _ _) curve_0) by discriminate.
        rewrite src_nth by exact Hs. unfold power_law, at_freq, parse_row. cbn [w_stokes w_spi w_ref rsum csum]. f_equal. f_equal.
        destruct (s_spi (s_ s)); cbn; ring. }
      rewrite !X in Vb by lia. cbn [stokes_row] in Vb. rewrite Vb. reflexivity. }
    assert (Ex : existsb has_rows args = true) by (unfold args; destruct gauss; reflexivity).
    assert (Br : brights args = [{| t_shape := nd_shape b; t_at := fun idx => (nd_at b idx : RC) |}]) by (unfold args; destruct gauss; reflexivity).
    assert (Fi : forall nc, nd_shape b = (if full then [n; u_nchan u; 2; 2] else [n; u_nchan u; nc]) -> Forall (fits (K := RC) full n (m_nrow ms) (u_nchan u) nc) args).
    { intros nc S. unfold args, fits, term_shape. destruct gauss; cbn [app]; repeat constructor; cbn; rewrite S; reflexivity. }
    unfold dims, pos in *. fold full in Sb, Fb. fold full.
    assert (Full : full = true <-> u_corrs u = 4) by apply Nat.eqb_eq.
    destruct full eqn:Fu.
    - destruct (product_full RC_laws n (m_nrow ms) (u_nchan u) 2 args) as (jo & Ej & Sj & Vj); [apply Fi; exact Sb | rewrite Br; cbn; lia | exact Ex |].
      exists lm, phase, st, sc, b, jo. repeat (split; [assumption |]). split; [rewrite (proj1 Full eq_refl); exact Ej |]. split; [exact Sj |].
      intros s r f c Hs Hr Hf Hcc. assert (u_corrs u = 4) by (apply Full; reflexivity).
      assert (c / 2 < 2) by (apply Nat.div_lt_upper_bound; lia). assert (c mod 2 < 2) by (apply Nat.mod_upper_bound; lia).
      change ([s; r; f] ++ [c / 2; c mod 2]) with [s; r; f; c / 2; c mod 2]. rewrite Vj by assumption. rewrite Fk by assumption. f_equal.
      rewrite Br. cbn [matrix_product]. unfold jprod, jone. cbn [csum]. cbn [t_at].
      rewrite <- (Fb s f c Hs Hf Hcc). cbn [app].
      destruct (c mod 2) as [|[|x]]; [| |lia]; cbn [Nat.eqb];
        match goal with |- cadd (cadd c0 (cmul ?a ?x)) (cmul ?b ?y) = _ => destruct a, b; cbn; f_equal; ring end.
    - assert (N : u_corrs u <> 4) by (intro X; apply Full in X; discriminate).
      destruct (product_vector RC_laws (u_corrs u) n (m_nrow ms) (u_nchan u) (u_corrs u) args N) as (jo & Ej & Sj & Vj); [apply Fi; exact Sb | rewrite Br; discriminate | exact Ex |].
      exists lm, phase, st, sc, b, jo. repeat (split; [assumption |]).
      intros s r f c Hs Hr Hf Hcc. change ([s; r; f] ++ [c]) with [s; r; f; c]. rewrite Vj. rewrite Fk by assumption. f_equal.
      rewrite Br. cbn [vector_product t_at]. rewrite <- (Fb s f c Hs Hf Hcc). cbn [app]. destruct (nd_at b [s; f; c]) as (x, y). cbn. f_equal; ring.
  Qed.

  (* ---------- with and without a beam ---------- *)
  Variable E : R -> R -> R -> R -> nat -> RC.
  Hypothesis HB : forall b, u_beam u = Some b -> beam_ok b /\ u_corrs u = 4 /\ antennas_ok u ms (m_nrow ms) /\
    forall l0 m chi nu c, beam_is b l0 m chi nu c (E l0 m chi nu c).
  Definition one (r f c : nat) (s : source) : RC :=
    match u_beam u with None => source_vis u f0 ms r f c s | Some _ => corrupted_vis u f0 lin E ms r f c s end.

  Lemma pol_ok : List.length (u_types u) = 4 -> pol_type_of (u_types u) = Ok (if lin then "linear" else "circular")%string.
  Proof.
    intros H4. assert (W : within_types (u_types u) (codes lin) = true).
    { apply forallb_forall. intros z Hz. apply existsb_exists. exists z. split; [apply Inc; exact Hz | apply Z.eqb_refl]. }
    unfold pol_type_of. fold linear_types circular_types. destruct lin; cbn [codes] in *.
    - rewrite W. reflexivity.
    - rewrite W. destruct (u_types u) as [|z r] eqn:Et; [discriminate |].
      assert (Z : In z circular_types) by (apply Inc; left; reflexivity).
      replace (within_types (z :: r) linear_types) with false; [reflexivity |].
      destruct Z as [<-|[<-|[<-|[<-|[]]]]]; reflexivity.
  Qed.
  Lemma rot_ok nt nants pa gb : exists o, feed_rotation (nt * nants) (fun i => pa (i / nants) (i mod nants)) true (if lin then "linear" else "circular") gb = Ok o /\
    forall t a i j, t < nt -> a < nants -> i < 2 -> j < 2 -> o (t * nants + a) i j = feed lin (pa t a) i j.
  Proof.
    set (p := fun i => pa (i / nants) (i mod nants)).
    assert (X : forall t a, t < nt -> a < nants -> t * nants + a < nt * nants /\ p (t * nants + a) = pa t a).
    { intros t a Ht Ha. split; [nia |]. unfold p. rewrite Nat.div_add_l, Nat.div_small, Nat.add_0_r by lia.
      rewrite Nat.add_comm, Nat.mod_add, Nat.mod_small by lia. reflexivity. }
    destruct lin.
    - destruct (feed_linear (nt * nants) p gb) as (o & Eo & V). exists o. split; [exact Eo |]. intros t a i j Ht Ha Hi Hj.
      destruct (X t a Ht Ha) as (B & P). destruct (V _ B) as (V1 & V2 & V3 & V4). rewrite P in *.
      destruct i as [|[|i]]; [| |lia]; (destruct j as [|[|j]]; [| |lia]); assumption.
    - destruct (feed_circular (nt * nants) p gb) as (o & Eo & V). exists o. split; [exact Eo |]. intros t a i j Ht Ha Hi Hj.
      destruct (X t a Ht Ha) as (B & P). destruct (V _ B) as (V1 & V2 & V3 & V4). rewrite P in *.
      destruct i as [|[|i]]; [| |lia]; (destruct j as [|[|j]]; [| |lia]); cbn [feed]; unfold cis; rewrite ?cos_neg, ?sin_antisym; assumption.
  Qed.
  Lemma beam_unique b l0 m chi nu c z z' : beam_ok b -> beam_is b l0 m chi nu c z -> beam_is b l0 m chi nu c z' -> z = z'.
  Proof.
    intros (B1 & B2 & B3 & B4 & B5) (sc & w & k & P & V) (sc' & w' & k' & P' & V'). rewrite B4 in *.
    destruct (freq_plane_unique _ _ _ _ _ _ _ _ _ B3 B5 P P') as (-> & -> & ->). rewrite V, V'. reflexivity.
  Qed.
  Lemma dde_ok b lm utime : u_beam u = Some b ->
    (forall s, s < n -> lm s 0 = src_l (u_centre u) (s_ s) /\ lm s 1 = src_m (u_centre u) (s_ s)) ->
    exists d, dde_factory (u_beam u) (u_types u) (u_parang u) (u_nants u) n lm utime (u_nchan u) (u_freq u) (j_feed g) = Ok (Some d) /\
      d_ndim d = 6 /\ d_src d = n /\ d_chan d = u_nchan u /\ d_corr d = 2 /\
      forall s t a f i j, s < n -> t < List.length utime -> a < u_nants u -> f < u_nchan u -> i < 2 -> j < 2 ->
        let chi := u_parang u (nth t utime 0%R) a in
        d_at d s t a f i j = antenna_term lin (E (src_l (u_centre u) (s_ s)) (src_m (u_centre u) (s_ s)) chi (u_freq u f)) chi i j.
  Proof.
    intros Eb Fl. destruct (HB b Eb) as (Bo & H4 & _ & HE). destruct Bo as (B1 & B2 & B3 & B4 & B5) eqn:Bo'. clear Bo'.
    unfold dde_factory. rewrite Eb. replace (List.length (u_types u)) with 4 by (rewrite Hlen; auto). cbn [Nat.eqb negb].
    rewrite pol_ok by (rewrite Hlen; exact H4). cbn [bind].
    destruct (rot_ok (List.length utime) (u_nants u) (fun t a => u_parang u (nth t utime 0%R) a) (j_feed g)) as (o & Eo & Vo). rewrite Eo. cbn [bind].
    rewrite B4. rewrite B4 in B5.
    destruct (dde_value (bf_cube b) (bf_ext b) (bf_map b) B1 B2 B3 B5 n lm (List.length utime) (u_nants u) (fun t a => u_parang u (nth t utime 0%R) a)
      (fun _ _ _ _ => 0%R) (fun _ _ _ => 1%R) (u_nchan u) (u_freq u)) as (e & Ee & Ve).
    rewrite Ee. cbn [bind]. eexists. split; [reflexivity |]. cbn [d_ndim d_src d_chan d_corr d_at]. repeat (split; [reflexivity |]).
    intros s t a f i j Hs Ht Ha Hf Hi Hj. set (chi := u_parang u (nth t utime 0%R) a). unfold antenna_term, jprod. apply csum_ext. intros k Hk.
    rewrite Vo by assumption. f_equal. apply (beam_unique b (src_l (u_centre u) (s_ s)) (src_m (u_centre u) (s_ s)) chi (u_freq u f) (2 * i + k)); [repeat split; try assumption; rewrite B4; assumption | | apply HE].
    destruct (Ve s t a f (2 * i + k) Hs Ht Ha Hf) as (sc & w & kk & P & Hkk & V). exists sc, w, kk. rewrite B4. split; [exact P |].
    destruct (Fl s Hs) as (<- & <-). exact V.
  Qed.

  Lemma vis_ok : exists out, vis_factory u g gauss src ms = Ok out /\
    forall r f c, r < m_nrow ms -> f < u_nchan u -> c < u_corrs u ->
      (if full then v_at out r f (c / 2) (c mod 2) else v_at out r f c 0) = sky_sum (one r f c) l.
  Proof.
    destruct jones_ok as (lm & phase & st & sc & b & jo & El & Fl & Ep & Es & Ec & Eb & Ej & Sj & Vj).
    unfold vis_factory. rewrite map_length. rewrite El. cbn [bind]. fold uvw_. rewrite Ep. cbn [bind]. rewrite Es. cbn [bind].
    rewrite Ec. cbn [bind]. fold stokes_list. rewrite Eb. cbn [bind]. rewrite Ej. cbn [bind].
    set (utime := unique_times (m_nrow ms) (m_time ms)).
    assert (Tm := place_min (m_nrow ms) (m_time ms) Hn). fold utime in Tm.
    assert (Pt : forall r, r < m_nrow ms -> place (m_time ms r) utime < List.length utime /\ nth (place (m_time ms r) utime) utime 0%R = m_time ms r).
    { intros r Hr. apply place_nth. apply unique_in. exists r. auto. }
    set (coh := {| h_ndim := List.length (t_shape jo); h_src := nth 0 (t_shape jo) 0; h_row := nth 1 (t_shape jo) 0;
                                  h_chan := nth 2 (t_shape jo) 0; h_corr := nth 3 (t_shape jo) 0;
                                  h_at := fun s r f i j => t_at jo (match List.length (t_shape jo) with 5 => [s; r; f; i; j] | _ => [s; r; f; i] end) |}).
    set (nc := if full then 2 else u_corrs u).
    assert (Hco : h_ndim coh = (if full then 5 else 4) /\ h_src coh = n /\ h_row coh = m_nrow ms /\ h_chan coh = u_nchan u /\ h_corr coh = nc).
    { unfold coh, nc. cbn [h_ndim h_src h_row h_chan h_corr]. rewrite Sj. unfold dims. fold full. destruct full; repeat split; reflexivity. }
    assert (Vco : forall s r f c, s < n -> r < m_nrow ms -> f < u_nchan u -> c < u_corrs u ->
      h_at coh s r f (if full then c / 2 else c) (if full then c mod 2 else 0) = source_vis u f0 ms r f c (s_ s)).
    { intros s r f c Hs Hr Hf Hcc. unfold source_vis. rewrite <- Vj by assumption. unfold coh, pos. cbn [h_at]. rewrite Sj. unfold dims. fold full.
      destruct full; reflexivity. }
    assert (Ob : exists ob, u_beam u = ob) by (eexists; reflexivity). destruct Ob as ([bb|] & Ebm).
    - destruct (dde_ok bb lm utime Ebm Fl) as (d & Ed & D1 & D2 & D3 & D4 & Vd). rewrite Ed. cbn [bind].
      destruct (HB bb Ebm) as (_ & H4 & An & _).
      assert (Fu : full = true) by (unfold full; rewrite H4; reflexivity).
      match goal with |- exists out, predict_vis ?x = _ /\ _ => set (a := x) end.
      destruct (predict_vis_spec RC_laws full n (u_nchan u) nc a) as (out & Eo & _ & _ & _ & _ & V).
      + constructor; cbn; try discriminate; intros e He; injection He as <-; auto; rewrite D1, D2, D3, D4; unfold nc; rewrite Fu; auto.
      + split; discriminate.
      + split; reflexivity.
      + left. discriminate.
      + exact Hn.
      + exists out. split; [exact Eo |]. intros r f c Hr Hf Hcc. destruct (An r Hr) as (A1 & A2). destruct (Pt r Hr) as (P1 & P2).
        rewrite Fu in *. assert (c / 2 < 2) by (apply Nat.div_lt_upper_bound; lia). assert (c mod 2 < 2) by (apply Nat.mod_upper_bound; lia).
        rewrite (V 0%Z Tm r f Hr Hf) by (split; assumption).
        unfold measurement, a. cbn [p_dde1 p_coh p_dde2 p_die1 p_die2 p_bvis p_ant1 p_ant2 p_time source_term].
        rewrite Z.sub_0_r, Nat2Z.id. unfold source_term. cbn [p_dde1 p_coh p_dde2 p_ant1 p_ant2]. unfold jadd, jzero. rewrite cadd0r.
        unfold jsum. rewrite D2. rewrite <- (sky_index (one r f c) dsrc l). apply csum_ext. intros s Hs. fold (s_ s).
        unfold one. rewrite Ebm. unfold corrupted_vis, sandwich, jprod. apply csum_ext. intros k Hk. rewrite Vd by assumption. rewrite P2. f_equal.
        apply csum_ext. intros k' Hk'. unfold jherm. rewrite Vd by assumption. rewrite P2. f_equal.
        rewrite <- Vco by (rewrite ?H4; auto; lia).
        replace ((2 * k + k') / 2) with k by (rewrite Nat.mul_comm, Nat.div_add_l, Nat.div_small by lia; lia).
        replace ((2 * k + k') mod 2) with k' by (rewrite Nat.add_comm, Nat.mul_comm, Nat.mod_add, Nat.mod_small by lia; lia). reflexivity.
    - rewrite Ebm. cbn [dde_factory bind].
      match goal with |- exists out, predict_vis ?x = _ /\ _ => set (a := x) end.
      destruct (predict_vis_spec RC_laws full n (u_nchan u) nc a) as (out & Eo & _ & _ & _ & _ & V).
      + constructor; cbn; try discriminate; intros e He; injection He as <-; auto.
      + split; reflexivity.
      + split; reflexivity.
      + right. left. discriminate.
      + exact Hn.
      + exists out. split; [exact Eo |]. intros r f c Hr Hf Hcc.
        assert (X : (if full then v_at out r f (c / 2) (c mod 2) else v_at out r f c 0) =
                    v_at out r f (if full then c / 2 else c) (if full then c mod 2 else 0)) by (destruct full; reflexivity). rewrite X.
        rewrite (V 0%Z Tm r f Hr Hf).
        2: { unfold corr_ok, nc, full in *. destruct (Nat.eqb_spec (u_corrs u) 4) as [H4|]; [|split; [assumption | reflexivity]].
             split; [apply Nat.div_lt_upper_bound; lia | apply Nat.mod_upper_bound; lia]. }
        unfold measurement, a. cbn [p_dde1 p_coh p_dde2 p_die1 p_die2 p_bvis p_ant1 p_ant2 p_time source_term].
        unfold source_term. cbn [p_dde1 p_coh p_dde2 p_ant1 p_ant2]. unfold jadd, jzero. rewrite cadd0r.
        unfold jsum. destruct Hco as (_ & -> & _). rewrite <- (sky_index (one r f c) dsrc l). apply csum_ext. intros s Hs. fold (s_ s).
        unfold one. rewrite Ebm. apply Vco; assumption.
  Qed.
End Vis.
