From Coq Require Import String Ascii QArith QArith.Qcanon Qround Lqa Permutation.
From Verif Require Import Prelude PreludeFacts QcArith QcFacts BarModel BarSpec BarProofs.
Close Scope string_scope. Close Scope Q_scope. Close Scope Qc_scope.
Open Scope nat_scope.

(* ---------- whole numbers and rounding ---------- *)
Lemma q_of_this z : (this (q_of z) == inject_Z z)%Q.
Proof. exact (Qred_correct (inject_Z z)). Qed.
Lemma q_of_le a b : (q_of a <= q_of b)%Qc <-> (a <= b)%Z.
Proof. unfold Qcle. rewrite !q_of_this. rewrite <- Zle_Qle. reflexivity. Qed.
Lemma q_of_lt a b : (q_of a < q_of b)%Qc <-> (a < b)%Z.
Proof. unfold Qclt. rewrite !q_of_this. rewrite <- Zlt_Qlt. reflexivity. Qed.
Lemma q_of_plus a b : q_of (a + b) = (q_of a + q_of b)%Qc.
Proof. apply Qc_is_canon. rewrite qc_plus, !q_of_this, inject_Z_plus. reflexivity. Qed.
Lemma q_of_mult a b : q_of (a * b) = (q_of a * q_of b)%Qc.
Proof. apply Qc_is_canon. rewrite qc_mult, !q_of_this, inject_Z_mult. reflexivity. Qed.

Lemma floor_rounds x : rounds_down x (qfloor x).
Proof.
  unfold rounds_down, Qcle, Qclt, qfloor. rewrite !q_of_this. split; [apply Qfloor_le|apply Qlt_floor].
Qed.
Lemma rounds_uniq x n m : rounds_down x n -> rounds_down x m -> n = m.
Proof.
  intros [A B] [C D].
  assert (H1 : (n < m + 1)%Z) by (apply q_of_lt; eapply Qcle_lt_trans; eauto).
  assert (H2 : (m < n + 1)%Z) by (apply q_of_lt; eapply Qcle_lt_trans; eauto). lia.
Qed.

Lemma rounding x : (q_of (round_even x) - Q2Qc (1 # 2) <= x)%Qc /\ (x <= q_of (round_even x) + Q2Qc (1 # 2))%Qc.
Proof.
  unfold round_even. destruct (floor_rounds x) as [A B]. rewrite q_of_plus in B.
  assert (O : (this (q_of 1) == 1)%Q) by reflexivity.
  destruct (x - q_of (qfloor x) ?= Q2Qc (1 # 2))%Qc eqn:C.
  - apply Qceq_alt in C.
    destruct (Z.even (qfloor x)); [|rewrite q_of_plus];
    apply (f_equal this) in C; assert (C' : (this (x - q_of (qfloor x))%Qc == this (Q2Qc (1 # 2)))%Q) by (rewrite C; reflexivity);
    qc_norm; rewrite ?O in *; split; lra.
  - apply Qclt_alt in C. qc_norm; rewrite ?O in *; split; lra.
  - apply Qcgt_alt in C. rewrite q_of_plus. qc_norm; rewrite ?O in *; split; lra.
Qed.

(* ---------- strings ---------- *)
Lemma str_app_length a b : String.length (a ++ b)%string = String.length a + String.length b.
Proof. induction a; simpl; congruence. Qed.
Lemma repeat_length c n : String.length (repeat_char c n) = n.
Proof. induction n; simpl; [reflexivity|f_equal; assumption]. Qed.
Lemma substring_length w s : String.length (substring 0 w s) = Nat.min w (String.length s).
Proof. revert w. induction s as [|c s IH]; destruct w; simpl; try reflexivity. now rewrite IH. Qed.
Lemma substring_repeat w c n : n <= w -> substring 0 w (repeat_char c n) = repeat_char c n.
Proof. revert w. induction n as [|n IH]; destruct w; simpl; intros; try reflexivity; [lia|]. f_equal. apply IH. lia. Qed.
Lemma field_length w s : String.length (field w s) = w.
Proof. unfold field. rewrite str_app_length, repeat_length, substring_length. lia. Qed.
Lemma field_repeat w c n : n <= w -> field w (repeat_char c n) = (repeat_char c n ++ repeat_char " " (w - n))%string.
Proof. intros H. unfold field. rewrite (substring_repeat w c n H), repeat_length. reflexivity. Qed.
Lemma pad_width w s : w <= String.length (pad_left w s).
Proof. unfold pad_left. rewrite str_app_length, repeat_length. lia. Qed.
Lemma fmt_whole w z : fmt w (q_of z) = pad_left w (int_text z).
Proof.
  unfold fmt. f_equal. f_equal. unfold round_even.
  assert (F : qfloor (q_of z) = z).
  { apply (rounds_uniq (q_of z)); [apply floor_rounds|]. split; [apply Qcle_refl|]. apply q_of_lt. lia. }
  rewrite F. replace (q_of z - q_of z)%Qc with 0%Qc by ring. reflexivity.
Qed.

(* ---------- format_time ---------- *)
Lemma divmod_60 t : (0 <= t)%Qc -> let m := fst (divmod t 60) in
  snd (divmod t 60) = (t - q_of (60 * m))%Qc /\ (0 <= m)%Z /\ (q_of (60 * m) <= t)%Qc /\ (t < q_of (60 * m + 60))%Qc.
Proof.
  intros H. unfold divmod. cbn [fst snd]. set (m := qfloor (t / q_of 60)).
  destruct (floor_rounds (t / q_of 60)%Qc) as [A B]. fold m in A, B. split; [reflexivity|].
  assert (D : t = (q_of 60 * (t / q_of 60))%Qc).
  { field. discriminate. }
  assert (S : (this (q_of 60) == 60)%Q) by reflexivity. assert (O : (this (q_of 1) == 1)%Q) by reflexivity.
  set (u := (t / q_of 60)%Qc) in *. rewrite q_of_plus in B.
  split.
  - assert (X : (-1 < m)%Z); [|lia]. apply q_of_lt. assert (Y : (this (q_of (-1)) == -1)%Q) by reflexivity.
    rewrite D in H. qc_norm. change (this 0%Qc) with 0%Q in *. rewrite S, ?O, ?Y in *. lra.
  - replace (60 * m + 60)%Z with (60 * m + 60 * 1)%Z by lia. rewrite q_of_plus, !q_of_mult. rewrite D.
    qc_norm. rewrite S, ?O in *. split; lra.
Qed.

Lemma between t a b c d : (q_of a <= t)%Qc -> (t < q_of b)%Qc -> (c <= a)%Z -> (b <= d)%Z -> (q_of c <= t)%Qc /\ (t < q_of d)%Qc.
Proof.
  intros A B C D. split; [eapply Qcle_trans; [|exact A]; now apply q_of_le|eapply Qclt_le_trans; [exact B|]; now apply q_of_le].
Qed.
Lemma lt_z t a b : (q_of a <= t)%Qc -> (t < q_of b)%Qc -> (a < b)%Z.
Proof. intros A B. apply q_of_lt. eapply Qcle_lt_trans; eauto. Qed.

Lemma formats t : (0 <= t)%Qc ->
  ((t < q_of 60)%Qc -> format_time t = (fmt 5 t ++ "s")%string) /\
  ((q_of 60 <= t)%Qc -> (t < q_of 3600)%Qc -> exists hi lo, measures t 60 1 hi lo /\
     format_time t = (fmt 2 (q_of hi) ++ "m" ++ fmt 2 (t - q_of (60 * hi))%Qc ++ "s")%string) /\
  ((q_of 3600 <= t)%Qc -> (t < q_of 86400)%Qc -> exists hi lo, measures t 3600 60 hi lo /\
     format_time t = (fmt 2 (q_of hi) ++ "h" ++ fmt 2 (q_of lo) ++ "m")%string) /\
  ((q_of 86400 <= t)%Qc -> (t < q_of 604800)%Qc -> exists hi lo, measures t 86400 3600 hi lo /\
     format_time t = (fmt 2 (q_of hi) ++ "d" ++ fmt 2 (q_of lo) ++ "h")%string) /\
  ((q_of 604800 <= t)%Qc -> exists hi lo, measures t 604800 86400 hi lo /\
     format_time t = (fmt 2 (q_of hi) ++ "w" ++ fmt 2 (q_of lo) ++ "d")%string).
Proof.
  intros H. pose proof (divmod_60 t H) as D. unfold format_time. destruct (divmod t 60) as [m s].
  cbn [fst snd] in D. destruct D as (-> & M & A & B).
  pose proof (Z.div_mod m 60 ltac:(lia)) as E1. pose proof (Z.mod_pos_bound m 60 ltac:(lia)) as F1.
  set (h := (m / 60)%Z) in *. set (m1 := (m mod 60)%Z) in *.
  pose proof (Z.div_mod h 24 ltac:(lia)) as E2. pose proof (Z.mod_pos_bound h 24 ltac:(lia)) as F2.
  set (d := (h / 24)%Z) in *. set (h1 := (h mod 24)%Z) in *.
  pose proof (Z.div_mod d 7 ltac:(lia)) as E3. pose proof (Z.mod_pos_bound d 7 ltac:(lia)) as F3.
  set (w := (d / 7)%Z) in *. set (d1 := (d mod 7)%Z) in *. clearbody w d1 d h1 h m1.
  assert (W : (0 <= w)%Z) by lia.
  split; [|split; [|split; [|split]]].
  - intros T. pose proof (lt_z _ _ _ A T). assert (M0 : (60 * m = 0)%Z) by lia.
    assert (Z0 : (w = 0 /\ d1 = 0 /\ h1 = 0 /\ m1 = 0)%Z) by lia. clear E1 E2 E3. destruct Z0 as (-> & -> & -> & ->).
    rewrite M0. cbn [Z.eqb negb].
    replace (t - q_of 0)%Qc with t; [reflexivity|]. change (q_of 0) with 0%Qc. ring.
  - intros T U. pose proof (lt_z _ _ _ A U). pose proof (lt_z _ _ _ T B).
    assert (Z0 : (w = 0 /\ d1 = 0 /\ h1 = 0 /\ m1 = m)%Z) by lia. destruct Z0 as (-> & -> & -> & ->). cbn [Z.eqb negb].
    assert (Z.eqb m 0 = false) as -> by (apply Z.eqb_neq; lia). cbn [negb].
    exists m, (qfloor (t - q_of (60 * m))%Qc). split; [|reflexivity].
    destruct (floor_rounds (t - q_of (60 * m))%Qc) as [X Y]. set (lo := qfloor _) in *.
    assert (X' : (q_of (m * 60 + lo * 1) <= t)%Qc).
    { replace (m * 60 + lo * 1)%Z with (60 * m + lo)%Z by lia. rewrite q_of_plus. qc_lra. }
    assert (Y' : (t < q_of (m * 60 + (lo + 1) * 1))%Qc).
    { replace (m * 60 + (lo + 1) * 1)%Z with (60 * m + (lo + 1))%Z by lia. rewrite (q_of_plus (60 * m)). qc_lra. }
    pose proof (lt_z _ _ _ A Y'). pose proof (lt_z _ _ _ X' B).
    split; [lia|]. split; [lia|]. split; [lia|]. split; assumption.
  - intros T U. pose proof (lt_z _ _ _ A U). pose proof (lt_z _ _ _ T B).
    assert (Z0 : (w = 0 /\ d1 = 0 /\ h1 = h)%Z) by lia. destruct Z0 as (-> & -> & ->). cbn [Z.eqb negb].
    assert (Z.eqb h 0 = false) as -> by (apply Z.eqb_neq; lia). cbn [negb].
    exists h, m1. split; [|reflexivity]. split; [lia|]. split; [lia|]. split; [lia|]. apply (between t (60 * m) (60 * m + 60)); [exact A|exact B|lia|lia].
  - intros T U. pose proof (lt_z _ _ _ A U). pose proof (lt_z _ _ _ T B).
    assert (Z0 : (w = 0 /\ d1 = d)%Z) by lia. destruct Z0 as (-> & ->). cbn [Z.eqb negb].
    assert (Z.eqb d 0 = false) as -> by (apply Z.eqb_neq; lia). cbn [negb].
    exists d, h1. split; [|reflexivity]. split; [lia|]. split; [lia|]. split; [lia|]. apply (between t (60 * m) (60 * m + 60)); [exact A|exact B|lia|lia].
  - intros T. pose proof (lt_z _ _ _ T B).
    assert (Z.eqb w 0 = false) as -> by (apply Z.eqb_neq; lia). cbn [negb].
    exists w, d1. split; [|reflexivity]. split; [lia|]. split; [lia|]. split; [lia|]. apply (between t (60 * m) (60 * m + 60)); [exact A|exact B|lia|lia].
Qed.

(* ---------- the display ---------- *)
Lemma qn_this n : (this (Qc_of_nat n) == inject_Z (Z.of_nat n))%Q.
Proof. exact (Qred_correct _). Qed.
Lemma qn_nz n : 0 < n -> Qc_of_nat n <> 0%Qc.
Proof.
  intros H C. assert (X : (this (Qc_of_nat n) == 0)%Q) by (rewrite C; reflexivity). rewrite qn_this in X.
  unfold Qeq in X. simpl in X. lia.
Qed.
Lemma qn_le a b : a <= b -> (Qc_of_nat a <= Qc_of_nat b)%Qc.
Proof. intros H. unfold Qcle. rewrite !qn_this, <- Zle_Qle. lia. Qed.
Lemma qn_q_of n : Qc_of_nat n = q_of (Z.of_nat n). Proof. reflexivity. Qed.

Lemma qc_pos x : (0 <= x)%Qc -> x <> 0%Qc -> (0 < x)%Qc.
Proof. intros A B. destruct (Qcle_lt_or_eq _ _ A) as [C|C]; [exact C|congruence]. Qed.
Lemma qc_inv_pos x : (0 < x)%Qc -> (0 < / x)%Qc.
Proof.
  intros H. destruct (Qclt_le_dec 0 (/ x)) as [A|A]; [exact A|]. exfalso.
  assert (N : x <> 0%Qc) by (intros ->; revert H; unfold Qclt; simpl; lra).
  assert (M : (x * / x <= x * 0)%Qc).
  { rewrite !(Qcmult_comm x). apply Qcmult_le_compat_r; [exact A|]. now apply Qclt_le_weak. }
  rewrite Qcmult_inv_r in M by exact N. rewrite Qcmult_0_r in M. revert M. unfold Qcle. simpl. lra.
Qed.
Lemma qc_mul_pos x y : (0 < x)%Qc -> (0 < y)%Qc -> (0 < x * y)%Qc.
Proof. intros A B. replace 0%Qc with (0 * y)%Qc by ring. apply Qcmult_lt_compat_r; assumption. Qed.
Lemma qc_mul_le x y z : (0 <= z)%Qc -> (x <= y)%Qc -> (z * x <= z * y)%Qc.
Proof. intros A B. rewrite !(Qcmult_comm z). now apply Qcmult_le_compat_r. Qed.
Lemma qc_mul_nonneg x y : (0 <= x)%Qc -> (0 <= y)%Qc -> (0 <= x * y)%Qc.
Proof. intros A B. replace 0%Qc with (x * 0)%Qc by ring. now apply qc_mul_le. Qed.

Lemma scaled x f t : (0 <= x)%Qc -> 0 < f -> f <= t -> (x <= x / Qc_of_nat f * Qc_of_nat t)%Qc.
Proof.
  intros X F T. pose proof (qn_nz f F) as N.
  assert (E : x = (x / Qc_of_nat f * Qc_of_nat f)%Qc) by (field; exact N).
  rewrite E at 1. apply qc_mul_le; [|now apply qn_le].
  unfold Qcdiv. apply qc_mul_nonneg; [exact X|]. apply Qclt_le_weak, qc_inv_pos.
  apply qc_pos; [|exact N]. unfold Qcle. rewrite qn_this. change (this 0%Qc) with (inject_Z 0). rewrite <- Zle_Qle. lia.
Qed.

Lemma qsum_le {A} (f g : A -> Qc) l : (forall a, (f a <= g a)%Qc) -> (qsum f l <= qsum g l)%Qc.
Proof. intros H. induction l as [|a l IH]; simpl; [apply Qcle_refl|]. now apply Qcplus_le_compat. Qed.
Lemma qsum_nonneg {A} (f : A -> Qc) l : (forall a, (0 <= f a)%Qc) -> (0 <= qsum f l)%Qc.
Proof. intros H. induction l as [|a l IH]; simpl; [apply Qcle_refl|]. replace 0%Qc with (0 + 0)%Qc by ring. now apply Qcplus_le_compat. Qed.

Lemma floor_scaled (k : Z) (f : Qc) : (0 <= k)%Z -> (0 <= f)%Qc -> (f <= 1)%Qc -> (0 <= qfloor (q_of k * f) <= k)%Z.
Proof.
  intros K A B. destruct (floor_rounds (q_of k * f)%Qc) as [C D]. set (n := qfloor _) in *.
  assert (P : (q_of 0 <= q_of k)%Qc) by (apply q_of_le; lia). change (q_of 0) with 0%Qc in P.
  split.
  - assert (X : (0 < n + 1)%Z); [|lia]. apply q_of_lt. change (q_of 0) with 0%Qc.
    eapply Qcle_lt_trans; [|exact D]. now apply qc_mul_nonneg.
  - apply q_of_le. eapply Qcle_trans; [exact C|].
    replace (q_of k) with (q_of k * 1)%Qc at 2 by ring. now apply qc_mul_le.
Qed.

Section Show.
  Context (key : Type) (key_eqb : key -> key -> bool) (bin_of : key -> res string).
  Hypothesis Eqb : forall a b, key_eqb a b = true <-> a = b.

  Lemma finished_le dsk es s : NoDup (finished key es) -> incl (finished key es) dsk ->
    finished_in key bin_of s (rev es) <= tasks_in key bin_of s dsk.
  Proof. intros N I. rewrite finished_count. unfold tasks_in. now apply nodup_filter_incl. Qed.
  Lemma finished_all dsk es s : NoDup (finished key es) -> incl (finished key es) dsk -> length dsk = length (finished key es) ->
    finished_in key bin_of s (rev es) = tasks_in key bin_of s dsk.
  Proof.
    intros N I L. rewrite finished_count. unfold tasks_in.
    assert (P : Permutation (finished key es) dsk) by (apply NoDup_Permutation_bis; [exact N|lia|exact I]).
    clear - P. induction P; simpl; [reflexivity| | |congruence].
    - destruct (in_bin key bin_of s x); simpl; congruence.
    - destruct (in_bin key bin_of s x), (in_bin key bin_of s y); reflexivity.
  Qed.

  Lemma needed_ge dsk es s : NoDup (finished key es) -> incl (finished key es) dsk -> forward key key_eqb (rev es) ->
    (spent_in key key_eqb bin_of s (rev es) <= needed_in key key_eqb bin_of dsk (rev es) s)%Qc.
  Proof.
    intros N I F. unfold needed_in. pose proof (finished_le dsk es s N I) as L.
    destruct (Nat.eqb (finished_in key bin_of s (rev es)) 0) eqn:E.
    - apply Nat.eqb_eq in E. revert E. clear. generalize (rev es).
      induction l as [|[k t|k t] l IH]; simpl; intros E; [apply Qcle_refl|auto|].
      destruct (in_bin key bin_of s k); [discriminate|]. destruct (since _ _ l k); auto.
    - apply Nat.eqb_neq in E. apply scaled; [now apply spent_nonneg_in|lia|exact L].
  Qed.
  Lemma needed_all dsk es s : NoDup (finished key es) -> incl (finished key es) dsk -> length dsk = length (finished key es) ->
    needed_in key key_eqb bin_of dsk (rev es) s = spent_in key key_eqb bin_of s (rev es).
  Proof.
    intros N I L. unfold needed_in. rewrite <- (finished_all dsk es s N I L).
    destruct (Nat.eqb (finished_in key bin_of s (rev es)) 0) eqn:E.
    - apply Nat.eqb_eq in E. revert E. clear. generalize (rev es).
      induction l as [|[k t|k t] l IH]; simpl; intros E; [reflexivity|auto|].
      destruct (in_bin key bin_of s k); [discriminate|]. destruct (since _ _ l k); auto.
    - apply Nat.eqb_neq in E. field. apply qn_nz. lia.
  Qed.

  Lemma estimates dsk es b0 b bins elapsed width :
    run_of key key_eqb dsk es -> start key bin_of dsk = Ok b0 -> handle_all key key_eqb bin_of b0 es = Ok b ->
    NoDup bins -> (forall k, In k dsk -> exists s, In s bins /\ bin_of k = Ok s) -> (0 < elapsed)%Qc ->
    let done := length (finished key es) in
    let took := spent key key_eqb (rev es) in
    (done = 0 -> exists msg, turn elapsed width (data b) = Ok (0, 0%Qc, msg) /\
       d_percent msg = 0%Z /\ d_estimate msg = "???"%string /\ String.length (d_bar msg) = width) /\
    (0 < done -> took = 0%Qc -> turn elapsed width (data b) = Raise ZeroDivision) /\
    (0 < done -> took <> 0%Qc -> exists e msg, turn elapsed width (data b) = Ok (done, e, msg) /\
       e = (elapsed / took * qsum (needed_in key key_eqb bin_of dsk (rev es)) bins)%Qc /\
       (elapsed <= e)%Qc /\ (done = length dsk -> e = elapsed) /\
       d_elapsed msg = format_time elapsed /\ d_estimate msg = format_time e /\ String.length (d_bar msg) = width /\
       ((elapsed < q_of 10)%Qc -> d_percent msg = 0%Z) /\
       ((q_of 10 <= elapsed)%Qc -> exists n, n <= width /\
          d_bar msg = (repeat_char "#" n ++ repeat_char " " (width - n))%string /\
          rounds_down (Qc_of_nat width * (elapsed / e)) (Z.of_nat n) /\
          rounds_down (q_of 100 * (elapsed / e)) (d_percent msg) /\ (0 <= d_percent msg <= 100)%Z)).
  Proof.
    intros (Nk & Nf & I & F) S H N K P done took.
    destruct (sums_are key key_eqb bin_of Eqb dsk es b0 b bins S H I N K) as (C & E & G).
    unfold turn, update_bar. fold done in C. fold took in G. set (sm := all_bins (data b)) in *.
    unfold show. rewrite C, G, E.
    assert (Pc : forall k t, In (Post k t) (rev es) -> exists s, In s bins /\ bin_of k = Ok s).
    { intros k t X. apply in_rev in X. apply K, I. apply finished_post. eauto. }
    assert (T : took = qsum (fun s => spent_in key key_eqb bin_of s (rev es)) bins).
    { unfold took. apply spent_spent_in; assumption. }
    split; [|split].
    - intros ->. simpl. replace (if Qc_ltb elapsed (q_of 10) then 0%Qc else 0%Qc) with 0%Qc by (destruct (Qc_ltb _ _); reflexivity).
      eexists. split; [reflexivity|]. simpl. split; [|split; [reflexivity|apply field_length]]. reflexivity.
    - intros D Z. destruct (Nat.eqb done 0) eqn:X; [apply Nat.eqb_eq in X; lia|]. simpl. rewrite Z.
      unfold Qc_eq_bool. destruct (Qc_eq_dec 0 0); [reflexivity|congruence].
    - intros D Z. destruct (Nat.eqb done 0) eqn:X; [apply Nat.eqb_eq in X; lia|]. cbn [negb].
      unfold Qc_eq_bool at 1. destruct (Qc_eq_dec took 0) as [|Z']; [congruence|]. clear Z'. cbn [bind].
      set (Q := qsum (needed_in key key_eqb bin_of dsk (rev es)) bins) in *.
      assert (Tn : (0 <= took)%Qc) by (rewrite T; apply qsum_nonneg; intros; now apply spent_nonneg_in).
      assert (Tp : (0 < took)%Qc) by now apply qc_pos.
      assert (Le : (took <= Q)%Qc) by (rewrite T; apply qsum_le; intros s; now apply needed_ge).
      set (e := (Q * elapsed / took)%Qc).
      assert (Ee : elapsed = (took * elapsed / took)%Qc) by (field; exact Z).
      assert (Ge : (elapsed <= e)%Qc).
      { unfold e, Qcdiv. rewrite Ee at 1. unfold Qcdiv. apply Qcmult_le_compat_r; [|now apply Qclt_le_weak, qc_inv_pos].
        apply Qcmult_le_compat_r; [exact Le|now apply Qclt_le_weak]. }
      assert (Ep : (0 < e)%Qc) by exact (Qclt_le_trans _ _ _ P Ge).
      assert (En : e <> 0%Qc) by (intros Y; rewrite Y in Ep; revert Ep; unfold Qclt; simpl; lra).
      assert (Frac : (0 <= elapsed / e)%Qc /\ (elapsed / e <= 1)%Qc).
      { unfold Qcdiv. split.
        - apply qc_mul_nonneg; [now apply Qclt_le_weak|now apply Qclt_le_weak, qc_inv_pos].
        - replace 1%Qc with (e * / e)%Qc by (field; exact En).
          apply Qcmult_le_compat_r; [exact Ge|now apply Qclt_le_weak, qc_inv_pos]. }
      assert (Qc_ltb 0%Qc e = true) as Lt by now apply Qc_ltb_lt.
      assert (Qc_eq_bool e 0%Qc = false) as Eb.
      { unfold Qc_eq_bool. destruct (Qc_eq_dec e 0); [contradiction|reflexivity]. }
      cbn [negb]. rewrite Lt, Eb. eexists e, _. split; [reflexivity|]. cbn [d_bar d_percent d_elapsed d_estimate].
      split; [unfold e; field; exact Z|]. split; [exact Ge|]. split.
      { intros L. unfold e. replace Q with took; [symmetry; exact Ee|].
        rewrite T. unfold Q. apply qsum_ext. intros s _. symmetry. apply needed_all; auto. }
      split; [reflexivity|]. split; [reflexivity|]. split; [apply field_length|]. split.
      + intros Y. apply Qc_ltb_lt in Y. rewrite Y. reflexivity.
      + intros Y. apply Qc_ltb_ge in Y. rewrite Y.
        destruct Frac as [F0 F1].
        pose proof (floor_scaled (Z.of_nat width) (elapsed / e)%Qc ltac:(lia) F0 F1) as W.
        rewrite <- qn_q_of in W. set (n := qfloor _) in W.
        exists (Z.to_nat n). split; [lia|]. split; [|split; [|split]].
        * fold n. apply field_repeat. lia.
        * rewrite Z2Nat.id by lia. apply floor_rounds.
        * apply floor_rounds.
        * apply floor_scaled; [lia|exact F0|exact F1].
  Qed.

  (* ---------- threads ---------- *)
  Notation step := (step key key_eqb bin_of). Notation steps := (steps key key_eqb bin_of).
  Definition walk (d : ddict) (pos : nat) : sums := fold_left (fun s kv => add_bin s (snd kv)) (firstn pos d) no_sums.
  Definition sane (w : world key) : Prop :=
    (w_finished _ w = true -> data (w_bar _ w) = []) /\
    match w_timer _ w with
    | Walking size pos acc => (w_finished _ w = false -> size = length (data (w_bar _ w))) /\
        (size = length (data (w_bar _ w)) -> pos <= size /\ acc = walk (data (w_bar _ w)) pos)
    | Died e => (e = RuntimeError /\ w_finished _ w = true) \/ e = ZeroDivision
    | _ => True
    end.

  Lemma show_error elapsed pc pe width s e : show elapsed pc pe width s = Raise e -> e = ZeroDivision /\ s_completed s <> pc /\ s_guess s = 0%Qc.
  Proof.
    unfold show. destruct (Nat.eqb (s_completed s) pc) eqn:E; simpl; [discriminate|].
    destruct (Qc_eq_bool (s_guess s) 0%Qc) eqn:Z; simpl; [|discriminate]. intros [= <-]. split; [reflexivity|].
    split; [now apply Nat.eqb_neq|]. revert Z. unfold Qc_eq_bool. destruct (Qc_eq_dec _ _); [auto|discriminate].
  Qed.

  Lemma sane_step w w' : sane w -> step w w' -> sane w'.
  Proof.
    intros [A B] T. destruct T; unfold sane; simpl in *; subst.
    - split; [discriminate|]. destruct t; try exact I; simpl in *; [tauto|exact B].
    - split; [reflexivity|]. destruct t; try exact I.
      + split; [discriminate|]. intros ->. destruct B as [B1 B2]. destruct f.
        * rewrite (A eq_refl) in B2. apply B2. reflexivity.
        * destruct (data b); [apply B2; reflexivity|]. specialize (B1 eq_refl). discriminate.
      + destruct B as [[B _]|B]; auto.
    - auto.
    - auto.
    - split; [exact A|]. split; [reflexivity|]. intros _. split; [lia|]. reflexivity.
    - auto.
    - split; [exact A|]. left. split; [reflexivity|]. destruct f; [reflexivity|]. destruct B as [B _]. exfalso. apply H. symmetry. auto.
    - split; [exact A|]. split; [reflexivity|]. intros _.
      destruct B as [_ B]. destruct (B eq_refl) as [B1 B2]. clear B.
      assert (pos < length (data b)) by (apply nth_error_Some; congruence). split; [lia|]. subst acc.
      assert (X : forall (l : ddict) p, nth_error l p = Some kv -> firstn (S p) l = firstn p l ++ [kv]).
      { clear. induction l as [|a l IH]; destruct p; simpl; intros E; try discriminate.
        - congruence.
        - f_equal. now apply IH. }
      unfold walk. rewrite (X _ _ H0), fold_left_app. reflexivity.
    - auto.
    - split; [exact A|]. right. apply show_error in H1. tauto.
  Qed.
  Lemma sane_start dsk w : initial key bin_of dsk w -> sane w.
  Proof. intros (b & S & ->). split; simpl; [discriminate|exact I]. Qed.
  Lemma sane_steps w w' : steps w w' -> sane w -> sane w'.
  Proof.
    intros T. induction T as [w|w1 w2 w3 T IH S]; intros X; [exact X|]. exact (sane_step _ _ (IH X) S).
  Qed.

  Lemma snapshot dsk w0 w w' size pos acc acc' : initial key bin_of dsk w0 -> steps w0 w -> step w w' ->
    w_timer _ w = Walking size pos acc -> w_timer _ w' = Shown acc' -> acc' = all_bins (data (w_bar _ w')).
  Proof.
    intros I T S E F. pose proof (sane_steps _ _ T (sane_start _ _ I)) as [A B].
    destruct S; simpl in *; subst; try discriminate; try congruence.
    injection E as <- <- <-. injection F as <-. destruct B as [_ B]. destruct (B eq_refl) as [B1 B2].
    apply nth_error_None in H0. unfold walk in B2. rewrite firstn_all2 in B2 by lia. exact B2.
  Qed.

  Lemma dies dsk w0 w e : initial key bin_of dsk w0 -> steps w0 w -> w_timer _ w = Died e ->
    (e = RuntimeError /\ w_finished _ w = true) \/ e = ZeroDivision.
  Proof. intros I T E. pose proof (sane_steps _ _ T (sane_start _ _ I)) as [A B]. rewrite E in B. exact B. Qed.
End Show.
