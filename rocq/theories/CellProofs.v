From Coq Require Import Reals Lra Lia.
From Verif Require Import Prelude CellModel CellSpec.
Open Scope R_scope.

Lemma max_of_spec n a : (0 < n)%nat -> (exists i, (i < n)%nat /\ max_of n a = a i) /\ forall i, (i < n)%nat -> a i <= max_of n a.
Proof.
  induction n as [|[|n] IH]; intros H; [lia | |].
  - split; [exists O; split; [lia | reflexivity] |]. intros i Hi. replace i with O by lia. apply Rle_refl.
  - destruct IH as ((i & Hi & E) & B); [lia |]. change (max_of (S (S n)) a) with (Rmax (max_of (S n) a) (a (S n))). split.
    + destruct (Rle_dec (max_of (S n) a) (a (S n))); [exists (S n); split; [lia | apply Rmax_right; assumption] |].
      exists i. split; [lia |]. rewrite Rmax_left by lra. exact E.
    + intros j Hj. destruct (Nat.eq_dec j (S n)) as [->|]; [apply Rmax_r |]. eapply Rle_trans; [apply B; lia | apply Rmax_l].
Qed.
Lemma min_of_spec n a : (0 < n)%nat -> (exists i, (i < n)%nat /\ min_of n a = a i) /\ forall i, (i < n)%nat -> min_of n a <= a i.
Proof.
  induction n as [|[|n] IH]; intros H; [lia | |].
  - split; [exists O; split; [lia | reflexivity] |]. intros i Hi. replace i with O by lia. apply Rle_refl.
  - destruct IH as ((i & Hi & E) & B); [lia |]. change (min_of (S (S n)) a) with (Rmin (min_of (S n) a) (a (S n))). split.
    + destruct (Rle_dec (min_of (S n) a) (a (S n))); [exists i; split; [lia | rewrite Rmin_left by assumption; exact E] |].
      exists (S n). split; [lia |]. apply Rmin_right. lra.
    + intros j Hj. destruct (Nat.eq_dec j (S n)) as [->|]; [apply Rmin_r |]. eapply Rle_trans; [apply Rmin_l | apply B; lia].
Qed.

Lemma extremes_ok u hi lo : is_largest u hi -> is_least u lo -> exists np, extremes u = Ok (np, hi, lo).
Proof.
  intros ((x & Ax & Ex) & Bx) ((y & Ay & Ey) & By). destruct u as [n a|z|].
  - assert (Hn : (0 < n)%nat) by (inversion Ax; lia). exists true. destruct n; [lia |]. cbn [extremes].
    destruct (max_of_spec (S n) (fun i => Rabs (a i)) Hn) as ((i & Hi & Ei) & Bi). destruct (min_of_spec (S n) (fun i => Rabs (a i)) Hn) as ((j & Hj & Ej) & Bj).
    f_equal. f_equal; [f_equal |].
    + apply Rle_antisym; [rewrite Ei; apply Bx; econstructor; [exact Hi | reflexivity] |]. inversion Ax as [? ? k Hk Ek |]; subst. apply Bi. exact Hk.
    + apply Rle_antisym; [|rewrite Ej; apply By; econstructor; [exact Hj | reflexivity]]. inversion Ay as [? ? k Hk Ek |]; subst. apply Bj. exact Hk.
  - exists false. inversion Ax; inversion Ay; subst. reflexivity.
  - inversion Ax.
Qed.
Lemma smallest_ok w m : is_shortest w m -> exists np, smallest w = Ok (np, m).
Proof.
  intros (A & B). destruct w as [n a|z|].
  - inversion A as [? ? i Hi Ei |]; subst. exists true. destruct n; [lia |]. cbn [smallest]. f_equal. f_equal.
    destruct (min_of_spec (S n) a ltac:(lia)) as ((j & Hj & Ej) & Bj). apply Rle_antisym; [apply Bj; exact Hi | rewrite Ej; apply B; econstructor; [exact Hj | reflexivity]].
  - exists false. inversion A; subst. reflexivity.
  - inversion A.
Qed.

Lemma div_fin np x y : y <> 0 -> ext_div np (Fin x) (Fin y) = Ok (Fin (x / y)).
Proof. intros H. cbn. destruct (Req_EM_T y 0); [contradiction | reflexivity]. Qed.
Lemma check_fin np n c l : 0 < l -> check np (Some n) (Fin c) (Fin l) = if Rlt_dec (c * n) (1 / l) then Raise ValueError else Ok tt.
Proof. intros H. unfold check. rewrite div_fin by lra. cbn [bind ext_mul ext_ltb]. destruct (Rlt_dec (c * n) (1 / l)); reflexivity. Qed.
Lemma check_zero n c : check true (Some n) (Fin c) (Fin 0) = Raise ValueError.
Proof. unfold check, ext_div. destruct (Req_EM_T 0 0); [|contradiction]. destruct (Rlt_dec 0 1); [|lra]. reflexivity. Qed.
(* the cell in radians *)
Definition cell (factor hi w : R) : R := w / (2 * factor * hi).
Lemma cell_eq factor hi w : 0 < factor -> 0 < hi -> 0 < w -> 1 / (2 * factor * (hi / w)) = cell factor hi w.
Proof. intros. unfold cell. field. repeat split; lra. Qed.
Definition passes (n : option R) (factor hi lo : R) : Prop := match n with None => True | Some n => 2 * factor * hi <= n * lo end.
Lemma bound_iff factor hi lo w n : 0 < factor -> 0 < hi -> 0 < w -> 0 < lo -> (cell factor hi w * n < 1 / (lo / w) <-> n * lo < 2 * factor * hi).
Proof.
  intros Hf Hh Hw Hl. assert (0 < 2 * factor * hi) by (apply Rmult_lt_0_compat; lra).
  replace (1 / (lo / w)) with (w / lo) by (field; lra).
  assert (X : (cell factor hi w * n) * (2 * factor * hi * lo) = w * (n * lo)) by (unfold cell; field; lra).
  assert (Y : (w / lo) * (2 * factor * hi * lo) = w * (2 * factor * hi)) by (field; lra).
  assert (P : 0 < 2 * factor * hi * lo) by (apply Rmult_lt_0_compat; lra).
  split; intros H0.
  - apply Rmult_lt_compat_r with (r := 2 * factor * hi * lo) in H0; [|exact P]. rewrite X, Y in H0. apply Rmult_lt_reg_l in H0; assumption.
  - apply Rmult_lt_reg_r with (r := 2 * factor * hi * lo); [exact P |]. rewrite X, Y. apply Rmult_lt_compat_l; assumption.
Qed.
Lemma check_ok np n factor hi lo w : 0 < factor -> 0 < hi -> 0 < w -> 0 <= lo -> (np = true \/ 0 < lo) ->
  (passes n factor hi lo -> check np n (Fin (cell factor hi w)) (Fin (lo / w)) = Ok tt) /\
  (~ passes n factor hi lo -> check np n (Fin (cell factor hi w)) (Fin (lo / w)) = Raise ValueError).
Proof.
  intros Hf Hh Hw Hl Hnp. destruct n as [n|]; [|split; [reflexivity | intros H; exfalso; apply H; exact I]]. cbn [passes].
  assert (P : 0 < 2 * factor * hi) by (apply Rmult_lt_0_compat; lra).
  destruct (Req_dec lo 0) as [->|Z].
  - assert (np = true) as -> by (destruct Hnp; [assumption | lra]). replace (0 / w) with 0 by (field; lra). rewrite check_zero. split; intros H; [lra | reflexivity].
  - assert (0 < lo) by lra. rewrite check_fin by (apply Rdiv_lt_0_compat; assumption). pose proof (bound_iff factor hi lo w n Hf Hh Hw ltac:(assumption)) as B.
    destruct (Rlt_dec _ _) as [L|L]; split; intros H0; try reflexivity; exfalso.
    + apply B in L. lra.
    + apply L, B. lra.
Qed.

Section Main.
  Variables (u v wv : arg_num) (factor : R) (ny nx : option R) (uh ul vh vl w : R).
  Hypothesis Uh : is_largest u uh.
  Hypothesis Ul : is_least u ul.
  Hypothesis Vh : is_largest v vh.
  Hypothesis Vl : is_least v vl.
  Hypothesis Ws : is_shortest wv w.
  Hypothesis Hf : 0 < factor.
  Hypothesis Hu : 0 < uh.
  Hypothesis Hv : 0 < vh.
  Hypothesis Hw : 0 < w.

  (* a single number has equal extremes *)
  Lemma least_pos x hi lo np : is_largest x hi -> is_least x lo -> 0 < hi -> extremes x = Ok (np, hi, lo) -> 0 <= lo /\ (np = true \/ 0 < lo).
  Proof.
    intros ((y & Ay & Ey) & _) ((z & Az & Ez) & _) Hh E. split; [rewrite Ez; apply Rabs_pos |].
    destruct x as [n a|x|]; cbn in E; [|injection E as _ _ El; inversion Ay; inversion Az; subst; right; assumption |discriminate].
    destruct n; [discriminate |]. injection E as <- _ _. left. reflexivity.
  Qed.
  Lemma estimate_rule :
    (passes ny factor uh ul -> passes nx factor vh vl -> estimate_cell_size u v wv factor ny nx = Ok (arcsec (Fin (cell factor uh w)), arcsec (Fin (cell factor vh w)))) /\
    (~ (passes ny factor uh ul /\ passes nx factor vh vl) -> estimate_cell_size u v wv factor ny nx = Raise ValueError).
  Proof.
    destruct (extremes_ok u uh ul Uh Ul) as (un & Eu). destruct (extremes_ok v vh vl Vh Vl) as (vn & Ev). destruct (smallest_ok wv w Ws) as (wn & Ew).
    destruct (least_pos u uh ul un Uh Ul Hu Eu) as (Lu & Nu). destruct (least_pos v vh vl vn Vh Vl Hv Ev) as (Lv & Nv).
    unfold estimate_cell_size. rewrite Eu, Ev, Ew. cbn [bind]. rewrite !div_fin by lra. cbn [bind ext_mul].
    assert (Pu : 2 * factor * (uh / w) <> 0) by (apply Rgt_not_eq; apply Rmult_lt_0_compat; [lra | apply Rdiv_lt_0_compat; assumption]).
    assert (Pv : 2 * factor * (vh / w) <> 0) by (apply Rgt_not_eq; apply Rmult_lt_0_compat; [lra | apply Rdiv_lt_0_compat; assumption]).
    rewrite !div_fin by assumption. cbn [bind]. rewrite !cell_eq by assumption.
    destruct (check_ok (un || wn) ny factor uh ul w Hf Hu Hw Lu) as (A & B); [destruct Nu as [-> | ?]; [left; reflexivity | right; assumption] |].
    destruct (check_ok (vn || wn) nx factor vh vl w Hf Hv Hw Lv) as (A' & B'); [destruct Nv as [-> | ?]; [left; reflexivity | right; assumption] |].
    assert (D : forall n h l, passes n factor h l \/ ~ passes n factor h l).
    { intros n h l. destruct n as [n|]; [|left; exact I]. cbn. destruct (Rle_dec (2 * factor * h) (n * l)); auto. }
    split.
    - intros P Q. rewrite (A P), (A' Q). reflexivity.
    - intros N. destruct (D ny uh ul) as [P|P]; [|rewrite (B P); reflexivity]. rewrite (A P). cbn [bind].
      destruct (D nx vh vl) as [Q|Q]; [exfalso; apply N; auto | rewrite (B' Q); reflexivity].
  Qed.
End Main.
Lemma radians_arcsec c : arcsec (Fin c) = Fin (c * (180 / PI * (60 * 60))) /\ radians (c * (180 / PI * (60 * 60))) = c.
Proof. split; [reflexivity |]. unfold radians. field. apply Rgt_not_eq, PI_RGT_0. Qed.
(* no baseline is longer than allowed at any wavelength *)
Lemma nyquist u wv factor uh w x l : is_largest u uh -> is_shortest wv w -> 0 < factor -> 0 < uh -> 0 < w -> among x u -> among l wv ->
  cell factor uh w * (Rabs x / l) <= 1 / (2 * factor).
Proof.
  intros (_ & B) (_ & S) Hf Hu Hw Ax Al. specialize (B x Ax). specialize (S l Al). pose proof (Rabs_pos x).
  assert (0 < l) by lra. assert (P : 0 < 2 * factor * uh * l) by (repeat apply Rmult_lt_0_compat; lra).
  apply Rmult_le_reg_r with (r := 2 * factor * uh * l); [exact P |].
  replace (cell factor uh w * (Rabs x / l) * (2 * factor * uh * l)) with (w * Rabs x) by (unfold cell; field; lra).
  replace (1 / (2 * factor) * (2 * factor * uh * l)) with (uh * l) by (field; lra).
  rewrite (Rmult_comm uh). apply Rmult_le_compat; lra.
Qed.
Lemma reached u wv factor uh w : is_largest u uh -> is_shortest wv w -> 0 < factor -> 0 < uh -> 0 < w ->
  exists x l, among x u /\ among l wv /\ cell factor uh w * (Rabs x / l) = 1 / (2 * factor).
Proof.
  intros ((x & Ax & Ex) & _) (Al & _) Hf Hu Hw. exists x, w. split; [exact Ax |]. split; [exact Al |]. rewrite <- Ex. unfold cell. field. lra.
Qed.
Lemma zero_float x y w factor ny nx : 0 < w -> x = 0 \/ y = 0 -> estimate_cell_size (Flt x) (Flt y) (Flt w) factor ny nx = Raise ZeroDivision.
Proof.
  intros Hw H. unfold estimate_cell_size. cbn [extremes smallest bind orb]. rewrite !div_fin by lra. cbn [bind].
  assert (Z : forall z, z = 0 -> ext_div false (Fin 1) (ext_mul (Fin (2 * factor)) (Fin (Rabs z / w))) = Raise ZeroDivision).
  { intros z ->. rewrite Rabs_R0. cbn [ext_mul ext_div]. destruct (Req_EM_T (2 * factor * (0 / w)) 0) as [|N]; [reflexivity |].
    exfalso. apply N. unfold Rdiv. ring. }
  destruct H as [H|H].
  - rewrite (Z x H). reflexivity.
  - destruct (ext_div false (Fin 1) (ext_mul (Fin (2 * factor)) (Fin (Rabs x / w)))) as [a|e] eqn:E.
    + cbn [bind]. rewrite (Z y H). reflexivity.
    + cbn [ext_mul ext_div] in E. destruct (Req_EM_T _ _); [injection E as <-; reflexivity | discriminate].
Qed.
Lemma zero_array n a v wv factor ny vh vl w : (0 < n)%nat -> (forall i, (i < n)%nat -> a i = 0) -> is_largest v vh -> is_least v vl -> is_shortest wv w ->
  0 < factor -> 0 < vh -> 0 < w -> (forall m, ny = Some m -> 0 <= m) -> estimate_cell_size (Arr n a) v wv factor ny None = Ok (PInf, arcsec (Fin (cell factor vh w))).
Proof.
  intros Hn Hz Vh Vl Ws Hf Hv Hw Hm.
  destruct (extremes_ok v vh vl Vh Vl) as (vn & Ev). destruct (smallest_ok wv w Ws) as (wn & Ew).
  unfold estimate_cell_size. rewrite Ev, Ew. destruct n; [lia |]. cbn [extremes bind].
  destruct (max_of_spec (S n) (fun i => Rabs (a i)) Hn) as ((i & Hi & ->) & _). destruct (min_of_spec (S n) (fun i => Rabs (a i)) Hn) as ((j & Hj & ->) & _).
  rewrite (Hz i Hi), (Hz j Hj), Rabs_R0. rewrite !div_fin by lra. cbn [bind ext_mul orb].
  replace (2 * factor * (0 / w)) with 0 by (unfold Rdiv; ring). replace (0 / w) with 0 by (unfold Rdiv; ring).
  assert (Pv : 2 * factor * (vh / w) <> 0) by (apply Rgt_not_eq; apply Rmult_lt_0_compat; [lra | apply Rdiv_lt_0_compat; assumption]).
  rewrite (div_fin _ 1 (2 * factor * (vh / w)) Pv). rewrite cell_eq by assumption. unfold ext_div at 1. destruct (Req_EM_T 0 0); [|contradiction]. destruct (Rlt_dec 0 1); [|lra].
  cbn [bind]. unfold check. assert (K : 0 < 180 / PI * (60 * 60)) by (apply Rmult_lt_0_compat; [apply Rdiv_lt_0_compat; [lra | apply PI_RGT_0] | lra]).
  assert (A : arcsec PInf = PInf) by (unfold arcsec, ext_mul; destruct (Rlt_dec 0 (180 / PI * (60 * 60))); [reflexivity | contradiction]).
  destruct ny as [m|]; [|cbn [bind]; rewrite A; reflexivity].
  unfold ext_div. destruct (Req_EM_T 0 0); [|contradiction]. destruct (Rlt_dec 0 1); [|lra]. cbn [bind].
  specialize (Hm m eq_refl). unfold ext_mul at 1. destruct (Rlt_dec 0 m); cbn [ext_ltb bind]; [rewrite A; reflexivity |].
  destruct (Rlt_dec m 0); [lra |]. cbn [ext_ltb bind]. rewrite A. reflexivity.
Qed.
