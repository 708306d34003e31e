(* Mask weights, extraction and projection of facets *)
From Coq Require Import QArith QArith.Qcanon ZArith Lia Sorting.Sorted Field.
From Verif Require Import Prelude PreludeFacts NumpyModel AvgModel AvgSpec AvgProofs SortFacts AvgProofs2 AvgProofs3 QcArith QcFacts GeomModel GeomSpec GeomProofs.
Close Scope Qc_scope. Close Scope Q_scope.
Open Scope Z_scope.

(* ---------- weights ---------- *)
Lemma px_eqb_spec p q : reflect (p = q) (px_eqb p q).
Proof.
  unfold px_eqb. destruct p as [a b], q as [c d]. cbn.
  destruct (Z.eqb_spec a c), (Z.eqb_spec b d); cbn; constructor; congruence.
Qed.
Lemma weight_at_notin m : forall w p, ~ In p m -> weight_at m w p = 0%Qc.
Proof.
  induction m as [|q m IH]; intros [|x w] p H; try reflexivity. cbn.
  destruct (px_eq_dec q p) as [->|]; [exfalso; apply H; now left|]. rewrite IH by (intros I; apply H; now right). apply Qcplus_0_l.
Qed.
Lemma set_weight_length l p v m : forall w, length (set_weight l p v m w) = length w.
Proof.
  induction m as [|q m IH]; intros [|x w]; try reflexivity. cbn. destruct (px_eqb q p); cbn; [|now rewrite IH].
  destruct l; [reflexivity|now rewrite IH].
Qed.
Lemma set_weight_notin l p v m : forall w, ~ In p m -> set_weight l p v m w = w.
Proof.
  induction m as [|q m IH]; intros [|x w] H; try reflexivity. cbn.
  destruct (px_eqb_spec q p) as [->|]; [exfalso; apply H; now left|]. now rewrite IH by (intros I; apply H; now right).
Qed.
Lemma weight_at_set l v m : forall w p q, NoDup m -> length w = length m ->
  weight_at m (set_weight l p v m w) q = if px_eq_dec p q then (if in_dec px_eq_dec p m then v else 0%Qc) else weight_at m w q.
Proof.
  induction m as [|a m IH]; intros [|x w] p q N L; try discriminate L.
  - cbn. destruct (px_eq_dec p q); reflexivity.
  - injection L as L. apply NoDup_cons_iff in N. destruct N as [Na N]. cbn [set_weight].
    destruct (px_eqb_spec a p) as [->|Nap].
    + assert (E : (if l then w else set_weight l p v m w) = w) by (destruct l; [reflexivity|now apply set_weight_notin]).
      rewrite E. cbn [weight_at]. destruct (px_eq_dec p q) as [->|].
      * rewrite weight_at_notin by exact Na. destruct (in_dec px_eq_dec q (q :: m)) as [|X]; [apply Qcplus_0_r|exfalso; apply X; now left].
      * reflexivity.
    + cbn [weight_at]. rewrite IH by assumption. destruct (px_eq_dec p q) as [->|Npq].
      * destruct (px_eq_dec a q); [contradiction|].
        destruct (in_dec px_eq_dec q m), (in_dec px_eq_dec q (a :: m)) as [I|I]; try apply Qcplus_0_l.
        -- exfalso; apply I; now right.
        -- exfalso. destruct I; contradiction.
      * reflexivity.
Qed.
Lemma px_in_complete l p m : In p m -> px_in l p m = true.
Proof.
  intros I. unfold px_in. destruct l; apply existsb_exists; exists p; split; auto.
  - now destruct (px_eqb_spec p p).
  - rewrite Z.eqb_refl. reflexivity.
Qed.

Definition upd_region (l : bool) (m : list px) (upx : list (Qc * px)) (w : list Qc) : list Qc :=
  fold_left (fun w (vp : Qc * px) => set_weight l (snd vp) (fst vp) m w)
            (filter (fun vp : Qc * px => px_in l (snd vp) m) upx) w.
Lemma upd_region_cons l m v p upx w : upd_region l m ((v, p) :: upx) w =
  upd_region l m upx (if px_in l p m then set_weight l p v m w else w).
Proof. unfold upd_region. cbn [filter snd]. destruct (px_in l p m); reflexivity. Qed.
Lemma upd_region_length l m upx : forall w, length (upd_region l m upx w) = length w.
Proof.
  induction upx as [|[v p] upx IH]; intros w; [reflexivity|]. rewrite upd_region_cons, IH.
  destruct (px_in l p m); [apply set_weight_length|reflexivity].
Qed.
Lemma upd_region_other l m upx q : forall w, NoDup m -> length w = length m -> (forall v, ~ In (v, q) upx) ->
  weight_at m (upd_region l m upx w) q = weight_at m w q.
Proof.
  induction upx as [|[v p] upx IH]; intros w N L H; [reflexivity|].
  assert (H' : forall v, ~ In (v, q) upx) by (intros v' I; apply (H v'); now right).
  rewrite upd_region_cons. destruct (px_in l p m); [|now apply IH]. rewrite IH; auto.
  - rewrite weight_at_set by assumption. destruct (px_eq_dec p q) as [->|]; [|reflexivity].
    exfalso. apply (H v). now left.
  - now rewrite set_weight_length.
Qed.
Lemma upd_region_hit l m upx q v : forall w, NoDup m -> length w = length m -> In q m ->
  In (v, q) upx -> NoDup (map snd upx) -> weight_at m (upd_region l m upx w) q = v.
Proof.
  induction upx as [|[v' p] upx IH]; intros w N L Iq I NU; [easy|].
  apply NoDup_cons_iff in NU. destruct NU as [Np NU]. rewrite upd_region_cons. destruct I as [E|I].
  - injection E as -> ->. rewrite px_in_complete by exact Iq.
    rewrite upd_region_other; auto; [|now rewrite set_weight_length|].
    + rewrite weight_at_set by assumption. destruct (px_eq_dec q q); [|contradiction]. destruct (in_dec px_eq_dec q m); [reflexivity|contradiction].
    + intros v' I. apply Np. cbn [snd]. apply (in_map snd) in I. exact I.
  - destruct (px_in l p m); apply IH; auto. now rewrite set_weight_length.
Qed.

(* ---------- flat indices ---------- *)
Lemma flat_back nx p : 0 <= snd p < nx -> ((fst p * nx + snd p) / nx, (fst p * nx + snd p) mod nx) = p.
Proof.
  intros H. destruct p as [y x]. cbn [fst snd] in *.
  rewrite Z.add_comm, Z.div_add, Z.mod_add, Z.div_small, Z.mod_small by lia. reflexivity.
Qed.

Lemma map_of_list l : map (of_list 0 l) (seq 0 (length l)) = l.
Proof.
  unfold of_list. apply nth_ext with (d := 0) (d' := 0); rewrite map_length, seq_length; [reflexivity|].
  intros i Hi. erewrite nth_indep by (rewrite map_length, seq_length; exact Hi).
  rewrite map_nth with (d := 0%nat). now rewrite seq_nth.
Qed.
Lemma combine_map_same {A B} (f : A -> B) l : combine l (map f l) = map (fun a => (a, f a)) l.
Proof. induction l as [|a l IH]; cbn; [reflexivity|now rewrite IH]. Qed.

Lemma sorted_nodup (l : list Z) : StronglySorted (fun x y => Z.ltb x y = true) l -> NoDup l.
Proof.
  induction 1 as [|a l S IH F]; constructor; [|exact IH]. intros I.
  rewrite Forall_forall in F. specialize (F a I). apply Z.ltb_lt in F. lia.
Qed.

Lemma occ_flat nx (all : list px) p : (forall q, In q all -> 0 <= snd q < nx) -> 0 <= snd p < nx ->
  occ zneqb (fst p * nx + snd p) (map (fun q : px => fst q * nx + snd q) all) = count_occ px_eq_dec all p.
Proof.
  intros H Hp. induction all as [|q all IH]; [reflexivity|]. cbn [map]. rewrite occ_cons. rewrite IH by (intros; apply H; now right).
  cbn [count_occ]. specialize (H q (or_introl eq_refl)).
  destruct (zneqb (fst q * nx + snd q) (fst p * nx + snd p)) eqn:E.
  - apply zneqb_spec in E. destruct (px_eq_dec q p) as [->|]; [congruence|reflexivity].
  - destruct (px_eq_dec q p) as [|Nq]; [reflexivity|]. exfalso. apply Nq.
    assert (EQ : fst q * nx + snd q = fst p * nx + snd p).
    { destruct (Z.eq_dec (fst q * nx + snd q) (fst p * nx + snd p)); [assumption|]. exfalso.
      assert (T : zneqb (fst q * nx + snd q) (fst p * nx + snd p) = true) by now apply zneqb_spec. congruence. }
    rewrite <- (flat_back nx q H), <- (flat_back nx p Hp), EQ. reflexivity.
Qed.

Lemma covering_count (rs : list region) p : Forall region_ok rs -> count_occ px_eq_dec (flat_map r_mask rs) p = covering rs p.
Proof.
  induction 1 as [|r rs (N & _) F IH]; [reflexivity|]. cbn [flat_map]. rewrite count_occ_app, IH. unfold covering. cbn [filter].
  destruct (in_dec px_eq_dec p (r_mask r)) as [I|I].
  - cbn [length]. pose proof (proj1 (NoDup_count_occ px_eq_dec _) N p). apply (count_occ_In px_eq_dec) in I. lia.
  - apply (count_occ_not_In px_eq_dec) in I. rewrite I. reflexivity.
Qed.

Lemma normalize_form rs (only : bool) p0 rest : flat_map r_mask rs = p0 :: rest -> Forall region_ok rs ->
  exists upx, NoDup (map snd upx) /\
    (forall p, In p (flat_map r_mask rs) -> (if only then (1 < covering rs p)%nat else True) ->
       In ((1 / Qc_of_nat (covering rs p))%Qc, p) upx) /\
    (forall v p, In (v, p) upx -> In p (flat_map r_mask rs) /\ v = (1 / Qc_of_nat (covering rs p))%Qc /\ (only = true -> 1 < covering rs p)%nat) /\
    normalize_masks rs only = Ok (map (fun r => {| r_is_list := r_is_list r; r_mask := r_mask r;
        r_wts := upd_region (r_is_list r) (r_mask r) upx (r_wts r) |}) rs).
Proof.
  intros E0 F. unfold normalize_masks. rewrite E0. rewrite <- E0. set (all := flat_map r_mask rs) in *.
  set (nx := list_max (snd p0) (map snd all) + 1).
  assert (B : forall q, In q all -> 0 <= snd q < nx).
  { intros q I. split.
    - unfold all in I. apply in_flat_map in I. destruct I as (r & Ir & Iq). rewrite Forall_forall in F. now apply (F r Ir).
    - unfold nx. assert (snd q <= list_max (snd p0) (map snd all)) by (apply list_max_ge; now apply in_map). lia. }
  set (fl := fun p : px => fst p * nx + snd p). cbv zeta. fold fl.
  destruct (unique_internal Z.ltb zneqb (length (map fl all)) (of_list 0 (map fl all))) as [[[us ids] inv] cnt] eqn:U.
  destruct (unique_internal_spec Z.ltb Zltb_order zneqb zneqb_spec _ _ _ _ _ _ U) as (S1 & S2 & _ & _ & _ & S6).
  rewrite map_of_list in S6. rewrite S6, combine_map_same.
  assert (US : forall u, In u us <-> In u (map fl all)).
  { intros u. rewrite S2. split.
    - intros (i & Hi & <-). unfold of_list. now apply nth_In.
    - intros I. apply In_nth with (d := 0) in I. exact I. }
  set (sel := filter (fun fc : Z * nat => if only then Nat.ltb 1 (snd fc) else true) (map (fun a => (a, occ zneqb a (map fl all))) us)).
  assert (SEL : forall u k, In (u, k) sel <-> exists p, In p all /\ u = fl p /\ k = covering rs p /\ (only = true -> (1 < k)%nat)).
  { intros u k. unfold sel. rewrite filter_In, in_map_iff. split.
    - intros [(a & Ea & Ia) C]. injection Ea as -> <-. apply US, in_map_iff in Ia. destruct Ia as (p & <- & Ip).
      exists p. split; [exact Ip|]. split; [reflexivity|]. cbn [snd] in C. unfold fl in *. rewrite occ_flat in * by auto.
      unfold all in *. rewrite covering_count in * by exact F.
      split; [reflexivity|]. intros ->. now apply Nat.ltb_lt.
    - intros (p & Ip & -> & -> & C). split.
      + exists (fl p). split; [|now apply US, in_map]. f_equal. unfold fl. rewrite occ_flat by auto. unfold all. now apply covering_count.
      + cbn [snd]. destruct only; [apply Nat.ltb_lt; auto|reflexivity]. }
  exists (map (fun fc : Z * nat => ((1 / Qc_of_nat (snd fc))%Qc, (fst fc / nx, fst fc mod nx))) sel).
  split; [|split; [|split]].
  - rewrite map_map. cbn [snd].
    assert (ND : NoDup (map fst sel)).
    { unfold sel. assert (G : forall l, NoDup (map fst l) -> forall f, NoDup (map fst (@filter (Z * nat) f l))).
      { clear. induction l as [|a l IH]; intros N f; [constructor|]. cbn in N. apply NoDup_cons_iff in N. destruct N as [Na N]. cbn.
        destruct (f a); [|now apply IH]. cbn. constructor; [|now apply IH]. intros I. apply Na.
        apply in_map_iff in I. destruct I as (b & <- & Ib). apply filter_In in Ib. now apply in_map. }
      apply G. rewrite map_map. cbn [fst]. rewrite map_id. now apply sorted_nodup. }
    assert (INJ : forall l, (forall fc, In fc l -> In fc sel) -> NoDup (map fst l) -> NoDup (map (fun fc : Z * nat => (fst fc / nx, fst fc mod nx)) l)).
    { induction l as [|[u k] l IH]; intros HI N; [constructor|]. cbn in N. apply NoDup_cons_iff in N. destruct N as [Nu N]. cbn. constructor.
      - intros I. apply in_map_iff in I. destruct I as ([u' k'] & E & I). cbn [fst] in E.
        pose proof (HI _ (or_introl eq_refl)) as J. apply SEL in J. destruct J as (p & Ip & -> & _).
        pose proof (HI _ (or_intror I)) as J'. apply SEL in J'. destruct J' as (p' & Ip' & -> & _).
        unfold fl in E. rewrite !flat_back in E by auto. subst. apply Nu. change (fl p) with (fst (fl p, k')). now apply in_map.
      - apply IH; [|exact N]. intros fc I. apply HI. now right. }
    apply INJ; auto.
  - intros p Ip C. apply in_map_iff. exists (fl p, covering rs p). cbn [fst snd]. split.
    + f_equal. unfold fl. now rewrite flat_back by auto.
    + apply SEL. exists p. repeat split; auto. intros ->. exact C.
  - intros v p I. apply in_map_iff in I. destruct I as ([u k] & E & I). apply SEL in I. destruct I as (q & Iq & -> & -> & C).
    cbn [fst snd] in E. unfold fl in E. rewrite flat_back in E by auto. injection E as <- <-. auto.
  - reflexivity.
Qed.

Lemma Qc_of_nat_S k : Qc_of_nat (S k) = (1 + Qc_of_nat k)%Qc.
Proof.
  unfold Qc_of_nat. apply Qc_is_canon. rewrite qc_plus. unfold Q2Qc, this. rewrite !Qred_correct.
  rewrite Nat2Z.inj_succ. unfold Z.succ. rewrite inject_Z_plus. rewrite Qplus_comm. reflexivity.
Qed.
Lemma Qc_of_nat_pos k : (0 < k)%nat -> Qc_of_nat k <> 0%Qc.
Proof.
  intros H E. assert (E' : (this (Qc_of_nat k) == 0)%Q) by (rewrite E; reflexivity). unfold Qc_of_nat, Q2Qc, this in E'.
  rewrite Qred_correct in E'. unfold Qeq in E'. cbn in E'. lia.
Qed.

(* every pixel covered by k regions gets weight 1/k from each of them *)
Theorem normalize_weights rs (only : bool) : Forall region_ok rs -> flat_map r_mask rs <> [] ->
  (only = true -> Forall unit_weights rs) ->
  exists out, normalize_masks rs only = Ok out /\
    Forall2 (fun r r' => r_is_list r' = r_is_list r /\ r_mask r' = r_mask r /\ length (r_wts r') = length (r_wts r) /\
       forall p, In p (r_mask r) -> weight_at (r_mask r') (r_wts r') p = (1 / Qc_of_nat (covering rs p))%Qc) rs out.
Proof.
  intros F NE U. destruct (flat_map r_mask rs) as [|p0 rest] eqn:E0; [contradiction|].
  destruct (normalize_form rs only p0 rest E0 F) as (upx & ND & IN & OUT & E). eexists. split; [exact E|].
  assert (G : forall l, (forall r, In r l -> In r rs) -> Forall2 (fun r r' => r_is_list r' = r_is_list r /\ r_mask r' = r_mask r /\ length (r_wts r') = length (r_wts r) /\
       forall p, In p (r_mask r) -> weight_at (r_mask r') (r_wts r') p = (1 / Qc_of_nat (covering rs p))%Qc) l
       (map (fun r => {| r_is_list := r_is_list r; r_mask := r_mask r; r_wts := upd_region (r_is_list r) (r_mask r) upx (r_wts r) |}) l)).
  { induction l as [|r l IH]; intros HI; [constructor|]. cbn [map]. constructor; [|apply IH; intros; apply HI; now right].
    cbn [r_is_list r_mask r_wts]. split; [reflexivity|]. split; [reflexivity|]. split; [apply upd_region_length|].
    intros p Ip. assert (Ir : In r rs) by (apply HI; now left).
    assert (R : region_ok r) by (rewrite Forall_forall in F; auto). destruct R as (N & L & P).
    assert (Iall : In p (flat_map r_mask rs)) by (apply in_flat_map; eauto).
    assert (C1 : (1 <= covering rs p)%nat).
    { unfold covering. assert (I2 : In r (filter (fun r => if in_dec px_eq_dec p (r_mask r) then true else false) rs)).
      { apply filter_In. split; [exact Ir|]. destruct (in_dec px_eq_dec p (r_mask r)); [reflexivity|contradiction]. }
      destruct (filter _ rs); [easy|cbn; lia]. }
    destruct only.
    - destruct (Nat.eq_dec (covering rs p) 1) as [E1|N1].
      + rewrite upd_region_other; auto.
        * rewrite E1. specialize (U eq_refl). rewrite Forall_forall in U. specialize (U r Ir).
          clear -N L Ip U. unfold unit_weights in U. revert U L N Ip. generalize (r_wts r). generalize (r_mask r).
          induction l as [|q m IH]; intros [|x w] U L N I; try discriminate L; [easy|]. injection L as L.
          apply NoDup_cons_iff in N. destruct N as [Nq N]. cbn [weight_at].
          destruct (px_eq_dec q p) as [->|Nqp].
          -- rewrite weight_at_notin by exact Nq. rewrite (U x (or_introl eq_refl)). apply Qc_is_canon. vm_compute. reflexivity.
          -- destruct I as [|I]; [contradiction|]. rewrite Qcplus_0_l. apply IH; auto. intros y Iy. apply U. now right.
        * intros v I. apply OUT in I. destruct I as (_ & _ & C). specialize (C eq_refl). lia.
      + apply upd_region_hit; auto. apply IN; [exact Iall|]. lia.
    - apply upd_region_hit; auto. }
  apply G. auto.
Qed.

Theorem normalize_partition rs (only : bool) : Forall region_ok rs -> flat_map r_mask rs <> [] ->
  (only = true -> Forall unit_weights rs) ->
  exists out, normalize_masks rs only = Ok out /\ length out = length rs /\
    (forall p, (exists r, In r rs /\ In p (r_mask r)) ->
       qsum (map (fun r' => weight_at (r_mask r') (r_wts r') p) out) = 1%Qc) /\
    (forall p, ~ (exists r, In r rs /\ In p (r_mask r)) ->
       qsum (map (fun r' => weight_at (r_mask r') (r_wts r') p) out) = 0%Qc).
Proof.
  intros F NE U. destruct (normalize_weights rs only F NE U) as (out & E & W). exists out. split; [exact E|].
  split; [|split].
  - clear -W. induction W; cbn; congruence.
  - intros p (r & Ir & Ip).
    assert (S : qsum (map (fun r' => weight_at (r_mask r') (r_wts r') p) out) = (Qc_of_nat (covering rs p) * (1 / Qc_of_nat (covering rs p)))%Qc).
    { revert W. set (c := covering rs p). intros W. unfold c at 1.
      assert (G : forall rs' out', Forall2 (fun r r' => r_is_list r' = r_is_list r /\ r_mask r' = r_mask r /\ length (r_wts r') = length (r_wts r) /\
         forall p, In p (r_mask r) -> weight_at (r_mask r') (r_wts r') p = (1 / Qc_of_nat (covering rs p))%Qc) rs' out' ->
         qsum (map (fun r' => weight_at (r_mask r') (r_wts r') p) out') = (Qc_of_nat (covering rs' p) * (1 / Qc_of_nat c))%Qc).
      { induction 1 as [|a a' rs' out' (_ & M & _ & Wp) F' IH].
        - cbn. unfold covering. cbn. apply Qc_is_canon. rewrite qc_mult. cbn. ring.
        - cbn [map qsum fold_right]. fold (qsum (map (fun r' => weight_at (r_mask r') (r_wts r') p) out')). rewrite IH. unfold covering. cbn [filter].
          destruct (in_dec px_eq_dec p (r_mask a)) as [I|I].
          + rewrite (Wp p I). fold c. cbn [length]. rewrite Qc_of_nat_S. ring.
          + rewrite weight_at_notin by (rewrite M; exact I). ring. }
      now apply G. }
    rewrite S. assert (C1 : (0 < covering rs p)%nat).
    { unfold covering. assert (I2 : In r (filter (fun r => if in_dec px_eq_dec p (r_mask r) then true else false) rs)).
      { apply filter_In. split; [exact Ir|]. destruct (in_dec px_eq_dec p (r_mask r)); [reflexivity|contradiction]. }
      destruct (filter _ rs); [easy|cbn; lia]. }
    apply Qc_of_nat_pos in C1. field. exact C1.
  - intros p NI.
    assert (G : forall l, (forall x, In x l -> ~ In p (r_mask x)) -> qsum (map (fun r' => weight_at (r_mask r') (r_wts r') p) l) = 0%Qc).
    { clear. induction l as [|x l IH]; intros H; [reflexivity|]. cbn. rewrite weight_at_notin by (apply H; now left).
      rewrite Qcplus_0_l. apply IH. intros y I. apply H. now right. }
    apply G. intros x Ix Ip. apply NI.
    assert (K : forall rs' out', Forall2 (fun r r' => r_is_list r' = r_is_list r /\ r_mask r' = r_mask r /\ length (r_wts r') = length (r_wts r) /\
         forall p, In p (r_mask r) -> weight_at (r_mask r') (r_wts r') p = (1 / Qc_of_nat (covering rs p))%Qc) rs' out' ->
         In x out' -> exists y, In y rs' /\ r_mask x = r_mask y).
    { induction 1 as [|a a' l l' (_ & Ma & _) W' IHW]; intros I; [easy|]. destruct I as [->|I]; [exists a; split; [now left|exact Ma]|].
      destruct (IHW I) as (y & ? & ?). exists y. split; [now right|assumption]. }
    destruct (K rs out W Ix) as (y & Iy & My). exists y. split; [exact Iy|]. now rewrite <- My.
Qed.
Theorem normalize_nothing rs only : flat_map r_mask rs = [] -> normalize_masks rs only = Raise IndexError.
Proof. intros E. unfold normalize_masks. now rewrite E. Qed.
