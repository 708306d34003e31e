From Coq Require Import Reals Lra String.
From Verif Require Import Prelude PreludeFacts LoopFacts CRing CplxR UtilModel RimeModel RimeSpec RimeProofs DaskRimeModel DaskRimeSpec DaskRimeProofs CohSpec
  CudaModel CudaSpec CudaProofs CudaRimeModel CudaRimeSpec.
Open Scope nat_scope.

Lemma pack_div n q a : a < n -> (q * n + a) / n = q.
Proof. intros H. rewrite Nat.div_add_l by lia. rewrite (Nat.div_small a) by auto. lia. Qed.
Lemma pack_mod n q a : a < n -> (q * n + a) mod n = a.
Proof. intros H. rewrite Nat.add_comm, Nat.mod_add by lia. now apply Nat.mod_small. Qed.
Lemma unpack_lt n m x : 0 < n -> x < n * m -> x / n < m.
Proof. intros. apply Nat.div_lt_upper_bound; lia. Qed.
Lemma pack_lt n m q a : q < m -> a < n -> q * n + a < n * m.
Proof. intros. nia. Qed.
(* blocks cover the dimension *)
Lemma cover_dim n b x : 0 < b -> x < n -> x / b < Nat.max 1 (Z.to_nat ((Z.of_nat n + Z.of_nat b - 1) / Z.of_nat b)).
Proof.
  intros Hb Hx. apply Nat.lt_le_trans with (Z.to_nat ((Z.of_nat n + Z.of_nat b - 1) / Z.of_nat b)); [|lia].
  replace (Z.of_nat n + Z.of_nat b - 1)%Z with (Z.of_nat (n + b - 1)) by lia. rewrite <- Nat2Z.inj_div, Nat2Z.id.
  apply Nat.lt_le_trans with ((x + b) / b).
  - replace (x + b) with (x + 1 * b) by lia. rewrite Nat.div_add by lia. lia.
  - apply Nat.div_le_mono; lia.
Qed.

Section Phase.
  Variables (bdx bdy gx gy nsrc nrow nchan : nat) (lm uvw : view) (frequency : arr R).
  Hypothesis Hx : 0 < bdx. Hypothesis Hy : 0 < bdy. Hypothesis Hgx : 0 < gx. Hypothesis Hgy : 0 < gy.
  Hypothesis Cx : forall c, c < nchan -> c / bdx < gx.
  Hypothesis Cy : forall r, r < nrow -> r / bdy < gy.
  Let k := phase_kernel bdx bdy gx gy nsrc nrow nchan lm uvw frequency.
  Definition phase_value (s r f : nat) : RC :=
    cis (minus_two_pi_over_c * (packed lm 2 s 0 * packed uvw 3 r 0 + packed lm 2 s 1 * packed uvw 3 r 1 +
         n1 (packed lm 2 s 0) (packed lm 2 s 1) * packed uvw 3 r 2) * frequency f)%R.
  Definition phase_val (b : nat) (l : name) : R :=
    match l with
    | [0; ty; c] => packed uvw 3 ((b / gx) * bdy + ty) c
    | [1; tx] => frequency ((b mod gx) * bdx + tx)
    | _ => 0%R
    end.
  Lemma phase_threads b t : runs_thread k b t ->
    b < gx * gy /\ t < bdx * bdy /\ (b / gx) * bdy + tid_y bdx t < nrow /\ (b mod gx) * bdx + tid_x bdx t < nchan.
  Proof.
    intros (A & B & C). cbn in A, B, C. rewrite negb_true_iff in C. apply orb_false_iff in C as [C1 C2].
    apply Nat.leb_gt in C1, C2. auto.
  Qed.
  Lemma phase_thread b t : b < gx * gy -> t < bdx * bdy -> (b / gx) * bdy + tid_y bdx t < nrow -> (b mod gx) * bdx + tid_x bdx t < nchan ->
    runs_thread k b t.
  Proof.
    intros A B C D. repeat split; auto. cbn. rewrite negb_true_iff. apply orb_false_iff. split; apply Nat.leb_gt; auto.
  Qed.
  Lemma tx_lt t : tid_x bdx t < bdx.
  Proof. apply Nat.mod_upper_bound. lia. Qed.
  Lemma ty_lt t : t < bdx * bdy -> tid_y bdx t < bdy.
  Proof. intros. apply unpack_lt; auto. Qed.
  Lemma phase_known b t i l : runs_thread k b t ->
    (exists c, c < 3 /\ l = [0; tid_y bdx t; c]) \/ l = [1; tid_x bdx t] -> forall g0, known k phase_val g0 b t 1 i l.
  Proof.
    intros R H g0. destruct (phase_threads _ _ R) as (A & B & C & D). right. left.
    assert (TX := tx_lt t). assert (TY := ty_lt t B).
    destruct H as [(c & Hc & ->)| ->].
    - assert (In (Share (W := RC) [0; tid_y bdx t; c] (fun _ => packed uvw 3 ((b / gx) * bdy + tid_y bdx t) c)) (kn_code k 0 b (tid_y bdx t * bdx + 0))) as I.
      { cbn [k phase_kernel kn_code]. unfold tid_x at 1, tid_y. rewrite pack_mod by lia. rewrite !(pack_div bdx) by lia. cbn [Nat.eqb].
        apply in_or_app. left. destruct c as [|[|[|]]]; [left|right; left|right; right; left|lia]; reflexivity. }
      apply In_nth_error in I as (i' & I). exists 0, (tid_y bdx t * bdx + 0), 0, i'. eexists. repeat split; try exact I; auto; try lia.
      + cbn. assert (tid_y bdx t * bdx + 0 < bdx * bdy) by (apply pack_lt; auto). lia.
      + apply phase_thread; auto; unfold tid_x, tid_y.
        * apply pack_lt; auto.
        * rewrite (pack_div bdx) by lia. exact C.
        * rewrite pack_mod by lia. lia.
    - assert (In (Share (W := RC) [1; tid_x bdx t] (fun _ => frequency ((b mod gx) * bdx + tid_x bdx t))) (kn_code k 0 b (tid_x bdx t))) as I.
      { cbn [k phase_kernel kn_code]. replace (tid_y bdx (tid_x bdx t)) with 0 by (symmetry; apply Nat.div_small; auto).
        replace (tid_x bdx (tid_x bdx t)) with (tid_x bdx t) by (symmetry; apply Nat.mod_small; auto).
        apply in_or_app. right. left. reflexivity. }
      apply In_nth_error in I as (i' & I). exists 0, (tid_x bdx t), 0, i'. eexists. repeat split; try exact I; auto; try lia.
      + cbn. nia.
      + apply phase_thread; auto.
        * nia.
        * replace (tid_y bdx (tid_x bdx t)) with 0 by (symmetry; apply Nat.div_small; auto). lia.
        * replace (tid_x bdx (tid_x bdx t)) with (tid_x bdx t) by (symmetry; apply Nat.mod_small; auto). exact D.
  Qed.
  Theorem phase_computes : computes k (out3 nsrc nrow nchan phase_value).
  Proof.
    apply (computes_ok k phase_val).
    - cbn. lia.
    - intros g0 o0 b t p i ins R P N _ m M. destruct (phase_threads _ _ R) as (A & B & C & D). apply nth_error_In in N as I.
      destruct p as [|p].
      + cbn [k phase_kernel kn_code] in I. apply in_app_or in I as [I|I].
        * destruct (tid_x bdx t =? 0); [|destruct I]. destruct I as [<-|[<-|[<-|[]]]]; reflexivity.
        * destruct (tid_y bdx t =? 0); [|destruct I]. destruct I as [<-|[]]. reflexivity.
      + assert (p = 0) as -> by (cbn in P; lia). cbn [k phase_kernel kn_code] in I. apply in_map_iff in I as (s & <- & I). apply in_seq in I.
        rewrite !M by (apply phase_known; auto; left; eexists; split; [|reflexivity]; lia).
        rewrite M by (apply phase_known; auto). cbn [phase_val out3].
        replace (s <? nsrc) with true by (symmetry; apply Nat.ltb_lt; lia).
        replace (b / gx * bdy + tid_y bdx t <? nrow) with true by (symmetry; apply Nat.ltb_lt; lia).
        replace (b mod gx * bdx + tid_x bdx t <? nchan) with true by (symmetry; apply Nat.ltb_lt; lia). reflexivity.
    - intros o w E. unfold out3 in E. destruct o as [|s [|r [|f [|]]]]; try discriminate.
      destruct (s <? nsrc) eqn:E1; [|discriminate]. destruct (r <? nrow) eqn:E2; [|discriminate]. destruct (f <? nchan) eqn:E3; [|discriminate].
      apply Nat.ltb_lt in E1, E2, E3. assert (X := Cx f E3). assert (Y := Cy r E2).
      assert (FM : f mod bdx < bdx) by (apply Nat.mod_upper_bound; lia). assert (RM : r mod bdy < bdy) by (apply Nat.mod_upper_bound; lia).
      set (b := r / bdy * gx + f / bdx). set (t := r mod bdy * bdx + f mod bdx).
      assert (BR : b / gx * bdy + tid_y bdx t = r).
      { unfold b, t, tid_y. rewrite (pack_div gx), (pack_div bdx) by auto. rewrite (Nat.div_mod r bdy) at 3 by lia. lia. }
      assert (BC : b mod gx * bdx + tid_x bdx t = f).
      { unfold b, t, tid_x. rewrite (pack_mod gx), (pack_mod bdx) by auto. rewrite (Nat.div_mod f bdx) at 3 by lia. lia. }
      assert (R : runs_thread k b t).
      { apply phase_thread; try lia; [apply pack_lt; auto|apply pack_lt; auto]. }
      exists b, t, 1, s. eexists. split; [exact R|]. split; [cbn; lia|]. cbn [k phase_kernel kn_code].
      rewrite BR, BC. erewrite map_nth_error; [reflexivity|]. rewrite (nth_error_nth' _ 0) by (rewrite seq_length; auto). rewrite seq_nth by auto. reflexivity.
  Qed.
End Phase.

Theorem cuda_phase sf su nsrc nrow nchan lm uvw frequency : contiguous 2 lm -> contiguous 3 uvw ->
  exists k, cuda_phase_delay sf su nsrc nrow nchan lm uvw frequency = Ok k /\
    computes k (out3 nsrc nrow nchan (fun s r f => cis (- delay (elem lm s 0) (elem lm s 1) (elem uvw r 0) (elem uvw r 1) (elem uvw r 2) (frequency f)))).
Proof.
  intros [L0 L1] [U0 U1]. unfold cuda_phase_delay, grids. cbn [length Nat.eqb negb grids_loop].
  set (bdx := if sf then 32 else 16). set (bdy := if su then 32 else 16).
  assert (0 < bdx) by (unfold bdx; destruct sf; lia). assert (0 < bdy) by (unfold bdy; destruct su; lia).
  destruct (Z.eqb_spec (Z.of_nat bdx) 0); [lia|]. destruct (Z.eqb_spec (Z.of_nat bdy) 0); [lia|]. cbn [Z.eqb bind].
  eexists. split; [reflexivity|]. unfold grid_dim. cbn [nth].
  assert (C := phase_computes bdx bdy (Nat.max 1 (Z.to_nat ((Z.of_nat nchan + Z.of_nat bdx - 1) / Z.of_nat bdx)))
     (Nat.max 1 (Z.to_nat ((Z.of_nat nrow + Z.of_nat bdy - 1) / Z.of_nat bdy))) nsrc nrow nchan lm uvw frequency
     ltac:(auto) ltac:(auto) ltac:(lia) ltac:(lia)).
  specialize (C (fun c Hc => cover_dim nchan bdx c ltac:(auto) Hc) (fun c Hc => cover_dim nrow bdy c ltac:(auto) Hc)).
  intros g o. destruct (C g o) as [B S]. split; auto. intros cnt s Rn. destruct (S cnt s Rn) as [P F]. split; auto.
  intros Fi x. rewrite (F Fi x). unfold out3. destruct x as [|i [|j [|f [|]]]]; auto.
  destruct ((i <? nsrc) && (j <? nrow) && (f <? nchan)); auto. unfold phase_value. f_equal.
  unfold delay, elem, packed. rewrite L0, L1, U0, U1.
  replace (i * 2 + 0 * 1) with (2 * i + 0) by lia. replace (i * 2 + 1 * 1) with (2 * i + 1) by lia.
  replace (j * 3 + 0 * 1) with (3 * j + 0) by lia. replace (j * 3 + 1 * 1) with (3 * j + 1) by lia. replace (j * 3 + 2 * 1) with (3 * j + 2) by lia.
  unfold minus_two_pi_over_c, two_pi_over_c, light, lightspeed. field.
Qed.
Theorem cuda_phase_cpu sf su nsrc nrow nchan lm uvw frequency : contiguous 2 lm -> contiguous 3 uvw ->
  exists k c, cuda_phase_delay sf su nsrc nrow nchan lm uvw frequency = Ok k /\
    phase_delay nsrc nrow nchan (elem lm) (elem uvw) frequency "fourier" = Ok c /\ computes k (out3 nsrc nrow nchan c).
Proof.
  intros L U. destruct (cuda_phase sf su nsrc nrow nchan lm uvw frequency L U) as (k & E & C).
  destruct (phase_delay_fourier nsrc nrow nchan (elem lm) (elem uvw) frequency) as (c & E' & V).
  exists k, c. split; auto. split; auto. intros g o. destruct (C g o) as [B S]. split; auto. intros cnt s Rn. destruct (S cnt s Rn) as [P F]. split; auto.
  intros Fi x. rewrite (F Fi x). unfold out3. destruct x as [|i [|j [|f [|]]]]; auto.
  destruct (Nat.ltb_spec i nsrc); auto. destruct (Nat.ltb_spec j nrow); auto. destruct (Nat.ltb_spec f nchan); auto. cbn [andb]. now rewrite V.
Qed.

(* lm is a transposed array: its memory is l0 l1 m0 m1 *)
Definition turned : view := {| vw_mem := fun i => match i with 1 => (3 / 5)%R | _ => 0%R end; vw_s0 := 1; vw_s1 := 2 |}.
Definition one_row : view := {| vw_mem := fun i => match i with 1 => (299792458 * 5 / 6)%R | _ => 0%R end; vw_s0 := 3; vw_s1 := 1 |}.
Theorem strided_differs : exists lm uvw frequency k c, vw_s0 lm = 1 /\ vw_s1 lm = 2 /\ contiguous 3 uvw /\
  cuda_phase_delay false false 2 1 1 lm uvw frequency = Ok k /\ phase_delay 2 1 1 (elem lm) (elem uvw) frequency "fourier" = Ok c /\
  forall g o n s, runs k n (init g o) s -> finished k s -> st_out s [0; 0; 0] <> c 0 0 0.
Proof.
  destruct (phase_delay_fourier 2 1 1 (elem turned) (elem one_row) (fun _ => 1%R)) as (c & E & V).
  exists turned, one_row, (fun _ => 1%R), (phase_kernel 16 16 1 1 2 1 1 turned one_row (fun _ => 1%R)), c.
  repeat split; auto.
  assert (C := phase_computes 16 16 1 1 2 1 1 turned one_row (fun _ => 1%R) ltac:(lia) ltac:(lia) ltac:(lia) ltac:(lia)).
  specialize (C ltac:(intros [|] H; [cbn; lia|lia]) ltac:(intros [|] H; [cbn; lia|lia])).
  intros g o n s R F Q. destruct (C g o) as [_ S]. destruct (S n s R) as [_ W]. rewrite (W F) in Q. rewrite V in Q by lia. cbn [out3 Nat.ltb Nat.leb andb] in Q.
  assert (Q1 := f_equal fst Q). unfold phase_value, cis, delay, elem, packed, turned, one_row in Q1. cbn [fst vw_mem vw_s0 vw_s1 Nat.mul Nat.add] in Q1.
  match type of Q1 with cos ?x = cos ?y => replace x with (- PI)%R in Q1; [replace y with 0%R in Q1|] end.
  - rewrite cos_neg, cos_PI, cos_0 in Q1. lra.
  - unfold n1, light. ring_simplify. field.
  - unfold minus_two_pi_over_c, two_pi_over_c, lightspeed. field.
Qed.

Section Feed.
  Variables (bdx gx npa : nat) (pa : arr R) (linear : bool).
  Hypothesis Hx : 0 < bdx.
  Hypothesis Cx : forall c, c < npa -> c / bdx < gx.
  Let k := feed_kernel bdx gx npa pa linear.
  Definition feed_value (p c : nat) : RC :=
    if linear then match c with 0 => (cos (pa p), 0%R) | 1 => (sin (pa p), 0%R) | 2 => ((- sin (pa p))%R, 0%R) | _ => (cos (pa p), 0%R) end
    else match c with 0 => (cos (pa p), (- sin (pa p))%R) | 1 => (0%R, 0%R) | 2 => (0%R, 0%R) | _ => (cos (pa p), sin (pa p)) end.
  Theorem feed_computes : computes k (out2 npa 4 feed_value).
  Proof.
    apply (computes_ok k (fun _ _ => 0%R)).
    - cbn. lia.
    - intros g0 o0 b t p i ins (A & B & C) P N _ m M. cbn in A, B, C. rewrite negb_true_iff in C. apply Nat.leb_gt in C. apply nth_error_In in N.
      cbn [k feed_kernel kn_code] in N. unfold out2, feed_value.
      destruct linear; destruct N as [<-|[<-|[<-|[<-|[]]]]]; (destruct (Nat.ltb_spec (b * bdx + t) npa); [|lia]); reflexivity.
    - intros o w E. unfold out2 in E. destruct o as [|p [|c [|]]]; try discriminate.
      destruct (p <? npa) eqn:E1; [|discriminate]. destruct (c <? 4) eqn:E2; [|discriminate]. apply Nat.ltb_lt in E1, E2.
      exists (p / bdx), (p mod bdx), 0, c.
      assert (Q : p / bdx * bdx + p mod bdx = p) by (rewrite (Nat.div_mod p bdx) at 3 by lia; lia).
      cbn [k feed_kernel kn_code]. rewrite Q. destruct linear, c as [|[|[|[|]]]]; try lia; eexists; (split; [|split; [cbn; lia|reflexivity]]);
        (split; [apply Cx; auto|split; [apply (Nat.mod_upper_bound p bdx); lia|]]); cbn; rewrite Q; rewrite negb_true_iff; apply Nat.leb_gt; auto.
  Qed.
End Feed.

Lemma feed_value_matrix (linear : bool) p x c : c < 4 ->
  feed_matrix (if linear then "linear" else "circular")%string x (c / 2) (c mod 2) = Some (feed_value (fun _ => x) linear p c).
Proof.
  intros H. unfold feed_matrix, feed_value. destruct linear; cbn [String.eqb Ascii.eqb Bool.eqb];
    destruct c as [|[|[|[|]]]]; try lia; cbn; try reflexivity; unfold cis; now rewrite ?cos_neg, ?sin_neg.
Qed.
Theorem cuda_feed shape pa dt ft : dt <> OtherType -> ft = "linear"%string \/ ft = "circular"%string ->
  exists k, cuda_feed_rotation shape pa dt ft = Ok k /\ computes k (feed_out shape pa ft).
Proof.
  intros Hd Hf. unfold cuda_feed_rotation.
  assert (exists linear : bool, ft = (if linear then "linear" else "circular")%string) as (linear & ->) by (destruct Hf as [->| ->]; [exists true|exists false]; reflexivity).
  set (bdx := match dt with F32 => 2 ^ 10 | _ => 2 ^ 9 end).
  assert (Hb : 0 < bdx) by (unfold bdx; destruct dt; apply Nat.neq_0_lt_0, Nat.pow_nonzero; lia).
  replace (match dt with F32 => Ok (2 ^ 10) | F64 => Ok (2 ^ 9) | OtherType => Raise TypeError end) with (Ok bdx) by (destruct dt; [reflexivity|reflexivity|contradiction]).
  clearbody bdx. cbn [bind].
  replace (if String.eqb (if linear then "linear" else "circular") "linear" then Ok true else if String.eqb (if linear then "linear" else "circular") "circular" then Ok false else Raise template_exn) with (Ok linear) by (destruct linear; reflexivity).
  cbn [bind]. unfold grids. cbn [length Nat.eqb negb grids_loop]. destruct (Z.eqb_spec (Z.of_nat bdx) 0); [lia|]. cbn [Z.eqb bind].
  eexists. split; [reflexivity|]. unfold grid_dim. cbn [nth].
  assert (C := feed_computes bdx (Nat.max 1 (Z.to_nat ((Z.of_nat (prodn shape) + Z.of_nat bdx - 1) / Z.of_nat bdx))) (prodn shape) (fun i => pa (unravel shape i)) linear
     Hb (fun c Hc => cover_dim (prodn shape) bdx c Hb Hc)).
  intros g o. destruct (C g o) as [B S]. split; auto. intros cnt s Rn. destruct (S cnt s Rn) as [P F]. split; auto.
  intros Fi x. rewrite (F Fi x). unfold out2, feed_out. destruct x as [|i [|j [|]]]; auto.
  destruct (i <? prodn shape); auto. destruct (Nat.ltb_spec j 4); auto. cbn [andb]. now rewrite (feed_value_matrix linear i) by auto.
Qed.
(* element by element as on the CPU *)
Theorem cuda_feed_cpu shape pa dt ft g : shape <> [] -> dt <> OtherType -> ft = "linear"%string \/ ft = "circular"%string ->
  exists k o, cuda_feed_rotation shape pa dt ft = Ok k /\ nd_feed_rotation shape pa true ft g = Ok o /\
    forall idx i j, inside idx shape -> i < 2 -> j < 2 -> feed_out shape pa ft [ravel shape idx; 2 * i + j] = Some (o idx i j).
Proof.
  intros Hs Hd Hf. destruct (cuda_feed shape pa dt ft Hd Hf) as (k & E & _).
  destruct (nd_feed_rotation shape pa true ft g) as [o|e] eqn:EO.
  - exists k, o. split; auto. split; auto. intros idx i j HI Hi Hj. assert (V := nd_feed_value shape pa ft g idx i j Hs HI Hi Hj). rewrite EO in V. cbn [bind] in V.
    unfold feed_out. assert (L := ravel_lt _ _ HI). destruct (Nat.ltb_spec (ravel shape idx) (prodn shape)); [|lia]. destruct (Nat.ltb_spec (2 * i + j) 4); [|lia]. cbn [andb].
    rewrite unravel_ravel by auto. replace ((2 * i + j) / 2) with i by (destruct i as [|[|]], j as [|[|]]; try lia; reflexivity).
    replace ((2 * i + j) mod 2) with j by (destruct i as [|[|]], j as [|[|]]; try lia; reflexivity).
    destruct (feed_matrix ft (pa idx) i j); congruence.
  - exfalso. unfold nd_feed_rotation in EO. destruct shape; [contradiction|]. destruct Hf as [->| ->]; cbn in EO; discriminate.
Qed.
