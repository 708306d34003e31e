From Coq Require Import Reals Lra.
From Verif Require Import Prelude PreludeFacts LoopFacts CRing CplxR UtilModel BeamModel BeamSpec BeamProofs BeamProofs2 BeamProofs3 DaskRimeModel DaskRimeProofs CohSpec
  CudaModel CudaSpec CudaProofs CudaRimeModel CudaRimeProofs CudaBeamModel CudaBeamSpec.
Open Scope nat_scope.

(* ---------- the frequency grid, for any map ---------- *)
Lemma mid_range lower upper : (lower <= upper)%Z -> (lower <= lower + (upper - lower) / 2 <= upper)%Z.
Proof. intros H. pose proof (Z.div_pos (upper - lower) 2). pose proof (Z.div_le_upper_bound (upper - lower) 2 (upper - lower)). lia. Qed.
Lemma search_ext n g g' f : (forall i, i < n -> g i = g' i) -> forall fuel lower upper, (0 <= lower)%Z -> (upper < Z.of_nat n)%Z ->
  grid_search fuel g f lower upper = grid_search fuel g' f lower upper.
Proof.
  intros E. induction fuel as [|fuel IH]; intros lower upper H0 H1; [reflexivity|]. cbn [grid_search].
  destruct (Z.leb_spec lower upper) as [L|]; [|reflexivity]. assert (M := mid_range _ _ L). cbv zeta. rewrite E by lia.
  destruct (Rlt_dec _ _); [apply IH; lia|]. destruct (Rlt_dec _ _); [apply IH; lia|]. reflexivity.
Qed.
Lemma search_range n g f : forall fuel lower upper, (0 <= lower)%Z -> (-1 <= upper < Z.of_nat n)%Z ->
  (0 <= fst (grid_search fuel g f lower upper))%Z /\ (-1 <= snd (grid_search fuel g f lower upper) < Z.of_nat n)%Z.
Proof.
  induction fuel as [|fuel IH]; intros lower upper H0 H1; [cbn; lia|]. cbn [grid_search].
  destruct (Z.leb_spec lower upper) as [L|]; [|cbn; lia]. assert (M := mid_range _ _ L). cbv zeta.
  destruct (Rlt_dec _ _); [apply IH; lia|]. destruct (Rlt_dec _ _); [apply IH; lia|]. cbn. lia.
Qed.
Lemma interp_ext n g g' f : 0 < n -> (forall i, i < n -> g i = g' i) -> freq_grid_interp n g f = freq_grid_interp n g' f.
Proof.
  intros Hn E. unfold freq_grid_interp. rewrite (search_ext n g g') by (auto; lia).
  destruct (search_range n g' f (S n) 0 (Z.of_nat n - 1)) as [A B]; [lia|lia|]. destruct (grid_search (S n) g' f 0 (Z.of_nat n - 1)) as [lo up]. cbn [fst snd] in *.
  destruct (Z.eqb_spec (Z.min lo up) (-1)); [now rewrite E|]. destruct (Z.eqb_spec (Z.min lo up + 1) (Z.of_nat n)); [now rewrite E by lia|].
  rewrite !E by lia. reflexivity.
Qed.
Lemma interp_plane n g f : 2 <= n -> exists sc w k, freq_grid_interp n g f = (sc, w, Z.of_nat k) /\ S k < n.
Proof.
  intros Hn. unfold freq_grid_interp.
  destruct (search_range n g f (S n) 0 (Z.of_nat n - 1)) as [A B]; [lia|lia|]. destruct (grid_search (S n) g f 0 (Z.of_nat n - 1)) as [lo up]. cbn [fst snd] in *.
  destruct (Z.eqb_spec (Z.min lo up) (-1)); [exists (f / g 0%nat)%R, 1%R, 0; split; [reflexivity|lia]|].
  destruct (Z.eqb_spec (Z.min lo up + 1) (Z.of_nat n)).
  - exists (f / g (n - 1)%nat)%R, 0%R, (n - 2). split; [repeat f_equal; lia|lia].
  - eexists _, _, (Z.to_nat (Z.min lo up)). split; [rewrite Z2Nat.id by lia; reflexivity|lia].
Qed.

(* ---------- the frequency kernel ---------- *)
Section Freq.
  Variables (bdx gx limit nud nchan : nat) (fmap frequencies : arr R).
  Hypothesis Hb : 0 < bdx. Hypothesis Hl : limit <= bdx. Hypothesis Hn : 0 < nud <= limit.
  Hypothesis Cx : forall c, c < nchan -> c / bdx < gx.
  Let k := interp_kernel bdx gx limit nud nchan fmap frequencies.
  (* what the threads of a block find in shared memory *)
  Definition map_seen (g : nat -> name -> R) (b : nat) : arr R := fun i => match b with 0 => fmap i | _ => g b [i] end.
  Lemma freq_untouched b i : 0 < b -> untouched k b [i].
  Proof.
    intros H u p j l f R P N. destruct p as [|p].
    - cbn [k interp_kernel kn_code] in N. destruct (Nat.ltb_spec (b * bdx + u) limit); [nia|]. destruct j; discriminate.
    - apply nth_error_In in N. cbn [k interp_kernel kn_code] in N. destruct (nchan <=? b * bdx + u); [destruct N|].
      apply in_map_iff in N as (c & Q & _). discriminate.
  Qed.
  Theorem freq_leaves g o : leaves k (init g o) o (freq_out nud nchan (fun f => map_seen g (f / bdx)) frequencies).
  Proof.
    apply (leaves_ok k (fun b l => match l with [i] => map_seen g b i | _ => 0%R end)).
    - cbn. lia.
    - intros b t p i ins R P N _ m M. destruct R as (A & B & _). cbn in A, B. apply nth_error_In in N as I.
      destruct p as [|p].
      + cbn [k interp_kernel kn_code] in I. destruct (Nat.ltb_spec (b * bdx + t) limit) as [L|]; [|destruct I]. destruct I as [<-|[]].
        destruct b; [reflexivity|nia].
      + assert (p = 0) as -> by (cbn in P; lia). cbn [k interp_kernel kn_code] in I.
        destruct (Nat.leb_spec nchan (b * bdx + t)) as [|L]; [destruct I|]. apply in_map_iff in I as (c & <- & I). apply in_seq in I.
        unfold freq_out. destruct (Nat.ltb_spec c 3); [|lia]. destruct (Nat.ltb_spec (b * bdx + t) nchan); [|lia]. cbn [andb].
        rewrite (pack_div bdx) by auto. unfold interp_data.
        rewrite (interp_ext nud (fun i => m [i]) (map_seen g b)); [destruct (freq_grid_interp _ _ _) as [[? ?] ?]; reflexivity|lia|].
        intros j Hj. rewrite M; [reflexivity|]. destruct b as [|b].
        * right. left. exists 0, j, 0, 0. eexists. repeat split; auto; try lia; try (cbn; lia).
          cbn [k interp_kernel kn_code]. destruct (Nat.ltb_spec (0 * bdx + j) limit); [reflexivity|lia].
        * right. right. split; [apply freq_untouched; lia|reflexivity].
    - intros x w E. unfold freq_out in E. destruct x as [|c [|f [|]]]; try discriminate.
      destruct (Nat.ltb_spec c 3); [|discriminate]. destruct (Nat.ltb_spec f nchan) as [L|]; [|discriminate].
      assert (Q : f / bdx * bdx + f mod bdx = f) by (rewrite (Nat.div_mod f bdx) at 3 by lia; lia).
      exists (f / bdx), (f mod bdx), 1, c. eexists. repeat split; [apply Cx; auto|apply (Nat.mod_upper_bound f bdx); lia|cbn; lia|].
      cbn [k interp_kernel kn_code]. rewrite Q. destruct (Nat.leb_spec nchan f); [lia|].
      erewrite map_nth_error; [reflexivity|]. rewrite (nth_error_nth' _ 0) by (rewrite seq_length; auto). rewrite seq_nth by auto. reflexivity.
  Qed.
End Freq.
Lemma leaves_ext {V W} (k : kernel V W) s o spec spec' : (forall x, spec x = spec' x) -> leaves k s o spec -> leaves k s o spec'.
Proof. intros E [B S]. split; auto. intros n s' R. destruct (S n s' R) as [P F]. split; auto. intros Fi x. rewrite <- E. auto. Qed.
