From Coq Require Import String Ring.
From Verif Require Import Prelude PreludeFacts CRing CplxR CohModel CohSpec CohProofs CohProofs2 CohProofs3 DftModel DaskRimeModel DaskRimeSpec DaskRimeProofs.
Open Scope nat_scope.

Lemma combos_single di : combos (map (fun d => [d]) di) = [map (fun d => (O, d)) di].
Proof. induction di as [|d di IH]; cbn [map combos]; [reflexivity|]. rewrite IH. reflexivity. Qed.
Lemma combine_app {A B} (a : list A) (b : list B) a' b' : List.length a = List.length b ->
  combine (a ++ a') (b ++ b') = (combine a b ++ combine a' b')%list.
Proof. revert b. induction a as [|x a IH]; intros [|y b] H; try discriminate; cbn; auto. injection H as H. now rewrite IH. Qed.
Lemma shift_app o o' f i : List.length o = List.length f -> shift (o ++ o') (f ++ i) = (shift o f ++ shift o' i)%list.
Proof. intros H. unfold shift. now rewrite combine_app, map_app. Qed.
Lemma shift_zeros {A} (di : list A) i : List.length i = List.length di -> shift (map fst (map (fun d => (O, d)) di)) i = i.
Proof.
  revert i. induction di as [|d di IH]; intros [|x i] H; try discriminate; [reflexivity|]. injection H as H.
  unfold shift in *. cbn. now rewrite IH.
Qed.
Lemma firstn_app_exact {A} (a b : list A) : firstn (List.length a) (a ++ b) = a.
Proof. rewrite firstn_app, Nat.sub_diag, firstn_all, firstn_O, app_nil_r. reflexivity. Qed.
Lemma skipn_app_exact {A} (a b : list A) : skipn (List.length a) (a ++ b) = b.
Proof. rewrite skipn_app, Nat.sub_diag, skipn_all. reflexivity. Qed.

Section C.
  Context {K : cops} (L : claws K) (half : K).
  Add Ring Kring : (law_ring K L).
  Lemma setup_same (a a' : ndarr K) is os fs fs' di : rect (boxed is) di -> distinct (boxed is) ->
    nd_shape a = (fs ++ di)%list -> nd_shape a' = (fs' ++ di)%list -> convert_setup half a is os = convert_setup half a' is os.
  Proof.
    intros Ri Di Ha Ha'. destruct (rect_accept is di Ri Di) as (r & Er & _). unfold convert_setup. rewrite Er, Ha, Ha'. cbn [bind].
    rewrite !lastn_app. reflexivity.
  Qed.
  Lemma setup_shapes (a : ndarr K) is os di do_ m ish osh : rect (boxed is) di -> distinct (boxed is) -> rect (boxed os) do_ -> distinct (boxed os) ->
    convert_setup half a is os = Ok (m, ish, osh) -> ish = di /\ osh = do_.
  Proof.
    intros Ri Di Ro Do H. destruct (rect_accept is di Ri Di) as (r & Er & _). destruct (rect_accept os do_ Ro Do) as (o & Eo & _).
    unfold convert_setup in H. rewrite Er, Eo in H. cbn [bind] in H. destruct (negb _); [discriminate|].
    apply bind_ok in H. destruct H as (m' & _ & H). destruct m'; [discriminate|]. injection H as _ <- <-. auto.
  Qed.
  Theorem dask_convert_eq g g' (free : list (list nat)) (a : ndarr K) is os di do_ :
    rect (boxed is) di -> distinct (boxed is) -> rect (boxed os) do_ -> distinct (boxed os) ->
    nd_shape a = (map (@list_sum) free ++ di)%list ->
    (forall idx s, at_ (boxed os) idx s -> exists deps p q fn, assoc s (stokes_conv half) = Some deps /\ first_pair (boxed is) deps p q fn) ->
    exists whole part, convert half g a is os = Ok whole /\
      dask_convert half g' (free ++ map (fun d => [d]) di) a is os = Ok part /\
      forall f i, inside f (map (@list_sum) free) -> inside i do_ -> part (f ++ i)%list = Ok (nd_at whole (f ++ i)%list).
  Proof.
    intros Ri Di Ro Do Ha Hp.
    destruct (convert_ok half g a is os _ di do_ Ri Di Ro Do Ha Hp) as (whole & E & Sh & _).
    assert (E' := E). unfold convert in E'. apply bind_ok in E'. destruct E' as ([[m ish] osh] & Es & _).
    destruct (setup_shapes _ _ _ _ _ _ _ _ Ri Di Ro Do Es) as (-> & ->).
    exists whole. unfold dask_convert. rewrite Es. cbn [bind]. eexists. split; [exact E|]. split; [reflexivity|]. intros f i Hf Hi.
    assert (LF : List.length f = List.length free) by (rewrite (inside_len _ _ Hf), map_length; reflexivity).
    rewrite app_length, map_length, Nat.add_sub, !firstn_app_exact, !skipn_app_exact.
    rewrite <- LF, !firstn_app_exact, !skipn_app_exact, combos_single. cbn [fold_right bind].
    destruct (located free f Hf) as (A & B & C). set (blk := locate_all free f) in *.
    set (ba := {| nd_shape := _; nd_at := _ |}).
    assert (Hb : nd_shape ba = (map snd blk ++ di)%list).
    { unfold ba. cbn [nd_shape]. rewrite map_map. cbn. now rewrite map_id. }
    destruct (convert_pointwise half g g' a ba is os _ _ di do_ (shift (map fst blk)) Ri Di Ro Do Ha Hb Hp) as (w & out' & Ew & Eo & _ & _ & V).
    { intros f' i' Hf' Hi'. unfold ba. cbn [nd_at]. rewrite shift_app, shift_zeros; auto.
      - apply (inside_len _ _ Hi').
      - rewrite map_length. rewrite (inside_len _ _ Hf'), map_length. reflexivity. }
    rewrite E in Ew. injection Ew as <-.
    unfold convert in Eo. rewrite <- (setup_same a ba is os _ _ di Ri Di Ha Hb), Es in Eo. cbn [bind] in Eo. rewrite Eo. cbn [bind].
    rewrite V by auto. rewrite B. f_equal. unfold xadd, cx0. cbn [fst snd]. destruct (nd_at whole (f ++ i)%list) as [x y]. cbn [fst snd]. f_equal; ring.
  Qed.
  Theorem dask_convert_setup_raises g g' chunks (a : ndarr K) is os e : convert_setup half a is os = Raise e ->
    convert half g a is os = Raise e /\ dask_convert half g' chunks a is os = Raise e.
  Proof. intros H. unfold convert, dask_convert. rewrite H. auto. Qed.
End C.

(* correlations in two chunks *)
Theorem convert_chunked_sums (half : GI) (i q u v : gint) g :
  exists whole part, convert half g (four i q u v) iquv (SSeq [SStr "XX"]) = Ok whole /\
    dask_convert half g [[2; 2]] (four i q u v) iquv (SSeq [SStr "XX"]) = Ok part /\
    nd_at whole [0] = ((@cadd GI i q, c0) : cx GI) /\
    part [0] = Ok ((@cadd GI (@cadd GI i q) (@cadd GI u v), c0) : cx GI).
Proof.
  destruct i as [i i'], q as [q q'], u as [u u'], v as [v v'].
  eexists. eexists. split; [reflexivity|]. split; [reflexivity|]. split.
  - cbn. unfold xadd, cx0. cbn. rewrite !Z.add_0_r. reflexivity.
  - cbn. unfold xadd, cx0. cbn. rewrite !Z.add_0_r. reflexivity.
Qed.
Theorem convert_chunked_raises (half : GI) (i q u v : gint) g :
  exists whole part, convert half g (four i q u v) iquv (SSeq [SStr "XY"]) = Ok whole /\
    dask_convert half g [[2; 2]] (four i q u v) iquv (SSeq [SStr "XY"]) = Ok part /\ part [0] = Raise IndexError.
Proof. eexists. eexists. split; [reflexivity|]. split; reflexivity. Qed.
