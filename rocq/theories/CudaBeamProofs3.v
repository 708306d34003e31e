From Coq Require Import Reals Lra.
From Verif Require Import Prelude PreludeFacts LoopFacts CRing CplxR UtilModel BeamModel DaskRimeModel DaskRimeProofs CohSpec
  CudaModel CudaSpec CudaProofs CudaRimeModel CudaRimeProofs CudaBeamModel CudaBeamSpec CudaBeamProofs CudaBeamProofs2.
Open Scope nat_scope.

(* ---------- the main kernel, whatever its threads find in memory they did not fill ---------- *)
Section Beam.
  Variables (lockstep : bool) (bdx bdy gx gy gz : nat) (a : beam_args).
  Hypothesis H4 : 4 <= bdx. Hypothesis Hy : 0 < bdy. Hypothesis Hgx : 0 < gx. Hypothesis Hgy : 0 < gy.
  Hypothesis Hcorr : a_ncorr a = 2 ^ a_shift a. Hypothesis Hdiv : exists q, bdx = q * a_ncorr a.
  Let ncc := a_nchan a * a_ncorr a.
  Hypothesis Cx : forall c, c < ncc -> c / bdx < gx. Hypothesis Cy : forall p, p < a_na a -> p / bdy < gy.
  Hypothesis Cz : a_ntime a <= gz.
  Let k := beam_kernel lockstep bdx bdy gx gy gz a.
  Let time (b : nat) := b / (gx * gy). Let by_ (b : nat) := (b / gx) mod gy. Let bx (b : nat) := b mod gx.
  Lemma ncorr_pos : 0 < a_ncorr a. Proof. rewrite Hcorr. apply Nat.neq_0_lt_0. apply Nat.pow_nonzero. lia. Qed.
  Lemma shift_div n : Nat.shiftr n (a_shift a) = n / a_ncorr a.
  Proof. rewrite Nat.shiftr_div_pow2, Hcorr. reflexivity. Qed.
  Lemma land_mod n : Nat.land n (a_ncorr a - 1) = n mod a_ncorr a.
  Proof. rewrite Hcorr, Nat.sub_1_r, <- Nat.ones_equiv. apply Nat.land_ones. Qed.
  Lemma chan_split q x : (q * bdx + x) / a_ncorr a = q * bdx / a_ncorr a + x / a_ncorr a.
  Proof.
    assert (P := ncorr_pos). destruct Hdiv as (d & ->). replace (q * (d * a_ncorr a)) with (q * d * a_ncorr a) by ring.
    rewrite Nat.div_add_l, Nat.div_mul by lia. reflexivity.
  Qed.
  Lemma corr_split q x : (q * bdx + x) mod a_ncorr a = x mod a_ncorr a.
  Proof.
    assert (P := ncorr_pos). destruct Hdiv as (d & ->). replace (q * (d * a_ncorr a) + x) with (x + q * d * a_ncorr a) by ring. apply Nat.mod_add. lia.
  Qed.
  Lemma block_of b : (time b * gy + by_ b) * gx + bx b = b.
  Proof.
    unfold time, by_, bx. rewrite <- Nat.div_div by lia. rewrite (Nat.mul_comm _ gy), <- (Nat.div_mod (b / gx) gy) by lia.
    rewrite (Nat.mul_comm _ gx), <- (Nat.div_mod b gx) by lia. reflexivity.
  Qed.
  Lemma beam_thread b t : runs_thread k b t <-> b < gx * gy * gz /\ t < bdx * bdy /\ time b < a_ntime a /\ by_ b * bdy + t / bdx < a_na a /\ bx b * bdx + t mod bdx < ncc.
  Proof.
    unfold runs_thread. cbn [k beam_kernel kn_blocks kn_threads kn_active]. fold ncc. fold (time b) (by_ b) (bx b).
    rewrite Bool.negb_true_iff, !Bool.orb_false_iff, !Nat.leb_gt. tauto.
  Qed.
  Lemma smaller b t x y : runs_thread k b t -> x <= t mod bdx -> y <= t / bdx -> runs_thread k b (y * bdx + x).
  Proof.
    rewrite !beam_thread. intros (A & B & C & D & E) Hx Hy'. assert (L : t mod bdx < bdx) by (apply Nat.mod_upper_bound; lia).
    assert (M : t / bdx < bdy) by (apply unpack_lt; auto; lia). rewrite (pack_div bdx), (pack_mod bdx) by lia.
    repeat split; auto; try lia. apply pack_lt; lia.
  Qed.

  Definition ext_seen (g : nat -> name -> R) (b i : nat) : R := if bx b * bdx + i <? ncc then a_ext a i else g b [0; i].
  (* the scales that the first thread of a block computes *)
  Variables (sl sm : nat -> R).
  Definition bval (g : nat -> name -> R) (b : nat) (l : name) : R :=
    match l with
    | [0; i] => ext_seen g b i
    | [1; 0] => sl b
    | [1; _] => sm b
    | [2; y] => sin (a_pa a (time b * a_na a + (by_ b * bdy + y)))
    | [3; y] => cos (a_pa a (time b * a_na a + (by_ b * bdy + y)))
    | [4; y; ch; c] => a_pe a (2 * ((time b * a_na a + (by_ b * bdy + y)) * a_nchan a + (bx b * bdx / a_ncorr a + ch)) + c)
    | [5; y; ch; c] => a_as a (2 * ((by_ b * bdy + y) * a_nchan a + (bx b * bdx / a_ncorr a + ch)) + c)
    | [6; c; ch] => a_freq_data a c (bx b * bdx / a_ncorr a + ch)
    | _ => 0%R
    end.
  (* the value at a source, time, antenna and channel-correlation *)
  Definition seen_value (ext : nat -> R) (lscale mscale : R) (s t p cc : nat) : RC :=
    let i := (t * a_na a + p) * a_nchan a + cc / a_ncorr a in
    let j := p * a_nchan a + cc / a_ncorr a in
    thread_value (a_beam a) (a_lw a) (a_mh a) (a_nud a) (a_ncorr a) (cc mod a_ncorr a) (ext 0) (ext 2) lscale mscale
      (sin (a_pa a (t * a_na a + p))) (cos (a_pa a (t * a_na a + p)))
      (a_pe a (2 * i)) (a_pe a (2 * i + 1)) (a_as a (2 * j)) (a_as a (2 * j + 1))
      (a_freq_data a 0 (cc / a_ncorr a)) (a_freq_data a 1 (cc / a_ncorr a)) (a_freq_data a 2 (cc / a_ncorr a))
      (a_lm a (2 * s)) (a_lm a (2 * s + 1)).
  Definition block_at (t p cc : nat) : nat := (t * gy + p / bdy) * gx + cc / bdx.
  Definition beam_seen (g : nat -> name -> R) (x : name) : option RC :=
    let shape := [a_nsrc a; a_ntime a; a_na a; ncc] in
    match x with
    | [i] => if i <? prodn shape then match unravel shape i with [s; t; p; cc] => Some (let b := block_at t p cc in seen_value (ext_seen g b) (sl b) (sm b) s t p cc) | _ => None end else None
    | _ => None
    end.

  Lemma in_share b t p ins : In ins (kn_code k p b t) -> p < 2 -> exists l f, ins = Share l f.
  Proof.
    intros I H. destruct p as [|[|]]; [| |lia]; cbn [k beam_kernel kn_code] in I.
    - destruct (t mod bdx <? 4); [|destruct I]. destruct I as [<-|[]]. eauto.
    - rewrite !in_app_iff in I. destruct I as [I|[I|[I|[I|I]]]].
      + destruct (_ && _); [|destruct I]. destruct I as [<-|[<-|[]]]; eauto.
      + destruct (_ =? _); [|destruct I]. destruct I as [<-|[<-|[]]]; eauto.
      + destruct (_ =? _); [|destruct I]. destruct I as [<-|[<-|[]]]; eauto.
      + destruct (_ =? _); [|destruct I]. destruct I as [<-|[<-|[]]]; eauto.
      + destruct (_ && _); [|destruct I]. apply in_map_iff in I as (c & <- & _). eauto.
  Qed.
  Lemma ext_untouched b i : ncc <= bx b * bdx + i -> untouched k b [0; i].
  Proof.
    intros H u p j l f R P N. apply nth_error_In in N. apply beam_thread in R as (_ & _ & _ & _ & R).
    destruct p as [|[|p]]; cbn [k beam_kernel kn_code] in N.
    - destruct (u mod bdx <? 4); [|destruct N]. destruct N as [[= <- _]|[]]. intros [= Q]. lia.
    - rewrite !in_app_iff in N. destruct N as [N|[N|[N|[N|N]]]].
      + destruct (_ && _); [|destruct N]. destruct N as [[= <- _]|[[= <- _]|[]]]; discriminate.
      + destruct (_ =? _); [|destruct N]. destruct N as [[= <- _]|[[= <- _]|[]]]; discriminate.
      + destruct (_ =? _); [|destruct N]. destruct N as [[= <- _]|[[= <- _]|[]]]; discriminate.
      + destruct (_ =? _); [|destruct N]. destruct N as [[= <- _]|[[= <- _]|[]]]; discriminate.
      + destruct (_ && _); [|destruct N]. apply in_map_iff in N as (c & [= <- _] & _). discriminate.
    - apply in_map_iff in N as (c & N & _). discriminate.
  Qed.
  Lemma by_thread g b t p i q u p' l f : runs_thread k b u -> q < p -> p' <= q -> kn_group k q u = kn_group k q t ->
    In (Share (W := RC) l f) (kn_code k p' b u) -> known k (bval g) g b t p i l.
  Proof. intros R A B C I. apply In_nth_error in I as (j & I). right. left. exists q, u, p', j, f. auto. Qed.
  (* the extents, after a barrier that the first threads of the row pass together *)
  Lemma known_ext g b t p i j : runs_thread k b t -> p = 1 /\ t / bdx = 0 /\ lockstep = true \/ p = 2 -> j < 4 -> known k (bval g) g b t p i [0; j].
  Proof.
    intros R P J. destruct (Nat.lt_ge_cases (bx b * bdx + j) ncc) as [L|L].
    - assert (Q : runs_thread k b j).
      { apply beam_thread in R as (A & B & C & D & E). apply beam_thread. rewrite (Nat.div_small j), (Nat.mod_small j) by lia. repeat split; auto; nia. }
      assert (I : In (Share (W := RC) [0; j] (fun _ => a_ext a j)) (kn_code k 0 b j)).
      { cbn [k beam_kernel kn_code]. rewrite (Nat.mod_small j) by lia. rewrite (proj2 (Nat.ltb_lt j 4)) by auto. left. reflexivity. }
      destruct P as [(-> & T & LS)| ->].
      + apply (by_thread g b t 1 i 0 j 0 _ _ Q) in I; auto. cbn [k beam_kernel kn_group]. rewrite LS, T. apply Nat.div_small. lia.
      + apply (by_thread g b t 2 i 1 j 0 _ _ Q) in I; auto.
    - right. right. split; [now apply ext_untouched|]. cbn [bval]. unfold ext_seen. now rewrite (proj2 (Nat.ltb_ge _ _)).
  Qed.
  Lemma first_thread g b t i l f x y : runs_thread k b t -> x <= t mod bdx -> y <= t / bdx ->
    In (Share (W := RC) l f) (kn_code k 1 b (y * bdx + x)) -> known k (bval g) g b t 2 i l.
  Proof. intros R X Y I. apply (by_thread g b t 2 i 1 (y * bdx + x) 1 l f); auto. apply (smaller b t); auto. Qed.
  Lemma round_le x : x / a_ncorr a * a_ncorr a <= x.
  Proof. rewrite Nat.mul_comm. apply Nat.mul_div_le. assert (P := ncorr_pos). lia. Qed.
  Ltac code x y := cbn [k beam_kernel kn_code]; rewrite !land_mod, !shift_div; rewrite ?(pack_div bdx y x), ?(pack_mod bdx y x) by lia.

  (* either the barrier of the row makes the extents known, or the first thread has computed the scales already *)
  Definition scales_known g (s0 : state R RC) : Prop := forall b t, runs_thread k b t ->
    (lockstep = true /\ sl b = (IZR (Z.of_nat (a_lw a) - 1) / (ext_seen g b 1 - ext_seen g b 0))%R /\
                        sm b = (IZR (Z.of_nat (a_mh a) - 1) / (ext_seen g b 3 - ext_seen g b 2))%R) \/
    before (1, 1) (st_pc s0 b 0).
  Lemma beam_consistent g s0 : scales_known g s0 -> consistent k (bval g) (beam_seen g) g s0.
  Proof.
    intros SK. assert (NP := ncorr_pos).
    intros b t p i ins R P N ND m M. apply nth_error_In in N as I.
      assert (LX : t mod bdx < bdx) by (apply Nat.mod_upper_bound; lia).
      assert (R' := R). apply beam_thread in R' as (A & B & C & D & E).
      assert (LY : t / bdx < bdy) by (apply unpack_lt; auto; lia).
      destruct p as [|[|p]]; cbn [k beam_kernel kn_code] in I.
      + destruct (Nat.ltb_spec (t mod bdx) 4); [|destruct I]. destruct I as [<-|[]]. cbn [bval]. unfold ext_seen. now rewrite (proj2 (Nat.ltb_lt _ _)).
      + fold (time b) (by_ b) (bx b) in I. rewrite !land_mod, !shift_div, chan_split in I. rewrite !in_app_iff in I. destruct I as [I|[I|[I|[I|I]]]].
        * destruct (Nat.eqb_spec (t / bdx) 0) as [T|]; [|destruct I]. destruct (Nat.eqb_spec (t mod bdx) 0) as [T'|]; [|destruct I]. cbn [andb] in I.
          destruct (SK b t R) as [(LS & S1 & S2)|Q].
          { destruct I as [<-|[<-|[]]]; cbn [bval]; rewrite !M by (apply known_ext; auto; lia); rewrite ?S1, ?S2; reflexivity. }
          exfalso. assert (t = 0) as -> by (rewrite (Nat.div_mod t bdx), T, T' by lia; lia).
          destruct i as [|[|i]].
          1: apply ND; unfold before in *; cbn [fst snd] in *; lia.
          1: apply ND; exact Q.
          assert (RS : exists x f, ins = Share [1; x] f) by (destruct I as [<-|[<-|[]]]; eauto). destruct RS as (x & f & ->). clear I.
          cbn [k beam_kernel kn_code] in N. rewrite T, T' in N. cbn [Nat.eqb andb app nth_error] in N. apply nth_error_In in N. rewrite !in_app_iff in N.
          repeat match goal with H : _ \/ _ |- _ => destruct H as [H|H] | H : In _ (if ?c then _ else _) |- _ => destruct c
            | H : In _ [] |- _ => destruct H | H : In _ (_ :: _) |- _ => destruct H as [H|H] | H : In _ (map _ _) |- _ => apply in_map_iff in H as (? & H & _) end; discriminate.
        * destruct (_ =? _); [|destruct I]. destruct I as [<-|[<-|[]]]; cbn [bval]; f_equal; lia.
        * destruct (_ =? _); [|destruct I]. destruct I as [<-|[<-|[]]]; cbn [bval]; f_equal; lia.
        * destruct (_ =? _); [|destruct I]. destruct I as [<-|[<-|[]]]; reflexivity.
        * destruct (_ && _); [|destruct I]. apply in_map_iff in I as (c & <- & _). reflexivity.
      + assert (p = 0) as -> by (cbn in P; lia).
        apply in_map_iff in I as (s & <- & I). apply in_seq in I. fold (time b) (by_ b) (bx b) ncc. rewrite !land_mod, !shift_div.
        set (X := t mod bdx) in *. set (Y := t / bdx) in *. assert (RL := round_le X).
        assert (RM : X / a_ncorr a * a_ncorr a / a_ncorr a = X / a_ncorr a) by (apply Nat.div_mul; lia).
        assert (RN : X / a_ncorr a * a_ncorr a mod a_ncorr a = 0) by (apply Nat.mod_mul; lia).
        rewrite !(M [0; _]) by (apply known_ext; auto; lia).
        rewrite (M [1; 0]), (M [1; 1]).
        2,3: eapply (first_thread g b t i _ _ 0 0); [auto|lia|lia|]; code 0 0; cbn [Nat.eqb andb]; apply in_or_app; left; first [left; reflexivity|right; left; reflexivity].
        rewrite (M [2; Y]), (M [3; Y]).
        2,3: eapply (first_thread g b t i _ _ 0 Y); [auto|lia|lia|]; code 0 Y; cbn [Nat.eqb]; rewrite !in_app_iff; right; right; right; left; first [left; reflexivity|right; left; reflexivity].
        rewrite (M [4; Y; X / a_ncorr a; 0]), (M [4; Y; X / a_ncorr a; 1]), (M [5; Y; X / a_ncorr a; 0]), (M [5; Y; X / a_ncorr a; 1]).
        2-5: eapply (first_thread g b t i _ _ (X / a_ncorr a * a_ncorr a) Y); [auto|lia|lia|]; code (X / a_ncorr a * a_ncorr a) Y; rewrite RM, RN; cbn [Nat.eqb]; rewrite !in_app_iff.
        2-5: first [right; left; left; reflexivity|right; left; right; left; reflexivity|right; right; left; left; reflexivity|right; right; left; right; left; reflexivity].
        assert (F : forall c, c < 3 -> m [6; c; X / a_ncorr a] = bval g b [6; c; X / a_ncorr a]).
        { intros c Hc. apply M. eapply (first_thread g b t i _ _ (X / a_ncorr a * a_ncorr a) 0); [auto|lia|lia|].
          code (X / a_ncorr a * a_ncorr a) 0. rewrite RM, RN. cbn [Nat.eqb andb]. rewrite !in_app_iff. right; right; right; right.
          apply in_map_iff. exists c. split; [reflexivity|]. apply in_seq. lia. }
        rewrite !F by lia. clear F.
        unfold beam_seen. set (shape := [a_nsrc a; a_ntime a; a_na a; ncc]).
        assert (IN : inside [s; time b; by_ b * bdy + Y; bx b * bdx + X] shape) by (unfold shape; insides).
        assert (EQ : ((s * a_ntime a + time b) * a_na a + (by_ b * bdy + Y)) * ncc + (bx b * bdx + X) = ravel shape [s; time b; by_ b * bdy + Y; bx b * bdx + X]).
        { unfold shape. cbn [ravel prodn]. ring. }
        rewrite EQ. rewrite (proj2 (Nat.ltb_lt _ _)) by (now apply ravel_lt). rewrite unravel_ravel by auto.
        unfold seen_value, block_at. rewrite (pack_div bdy), (pack_div bdx) by auto. rewrite block_of, chan_split, corr_split.
        cbn [bval]. rewrite !Nat.add_0_r. reflexivity.
  Qed.
  Lemma beam_covered g : covered k (beam_seen g).
  Proof.
      intros x w E. unfold beam_seen in E. destruct x as [|i [|]]; try discriminate.
      destruct (Nat.ltb_spec i (prodn [a_nsrc a; a_ntime a; a_na a; ncc])) as [L|]; [|discriminate].
      cbn [prodn] in L. rewrite Nat.mul_1_r in L. cbn [unravel prodn] in E. rewrite !Nat.mul_1_r, Nat.div_1_r in E.
      assert (Z1 : 0 < ncc) by nia. assert (Z2 : 0 < a_na a) by nia. assert (Z3 : 0 < a_ntime a) by nia. assert (Z4 : 0 < a_na a * ncc) by nia. assert (Z5 : 0 < a_ntime a * (a_na a * ncc)) by nia.
      set (s := i / (a_ntime a * (a_na a * ncc))) in *. set (i1 := i mod (a_ntime a * (a_na a * ncc))) in *.
      set (t := i1 / (a_na a * ncc)) in *. set (i2 := i1 mod (a_na a * ncc)) in *. set (p := i2 / ncc) in *. set (cc := i2 mod ncc) in *.
      assert (I0 : i = a_ntime a * (a_na a * ncc) * s + i1) by (apply Nat.div_mod; lia).
      assert (I1 : i1 = a_na a * ncc * t + i2) by (apply Nat.div_mod; lia). assert (I2 : i2 = ncc * p + cc) by (apply Nat.div_mod; lia).
      assert (L1 : i1 < a_ntime a * (a_na a * ncc)) by (apply Nat.mod_upper_bound; lia).
      assert (L2 : i2 < a_na a * ncc) by (apply Nat.mod_upper_bound; lia). assert (Lc : cc < ncc) by (apply Nat.mod_upper_bound; lia).
      assert (Ls : s < a_nsrc a) by (apply Nat.div_lt_upper_bound; nia).
      assert (Lt : t < a_ntime a) by (apply Nat.div_lt_upper_bound; nia). assert (Lp : p < a_na a) by (apply Nat.div_lt_upper_bound; nia).
      clearbody s i1 t i2 p cc.
      set (b := block_at t p cc). set (u := p mod bdy * bdx + cc mod bdx).
      assert (My : p mod bdy < bdy) by (apply Nat.mod_upper_bound; lia). assert (Mx : cc mod bdx < bdx) by (apply Nat.mod_upper_bound; lia).
      assert (Gx := Cx cc Lc). assert (Gy := Cy p Lp).
      assert (B1 : bx b = cc / bdx) by (unfold bx, b, block_at; apply pack_mod; auto).
      assert (B2 : by_ b = p / bdy) by (unfold by_, b, block_at; rewrite (pack_div gx) by auto; apply pack_mod; auto).
      assert (B3 : time b = t) by (unfold time, b, block_at; rewrite <- Nat.div_div, (pack_div gx) by lia; apply pack_div; auto).
      assert (T1 : u mod bdx = cc mod bdx) by (apply pack_mod; auto). assert (T2 : u / bdx = p mod bdy) by (apply pack_div; auto).
      assert (Q1 : bx b * bdx + u mod bdx = cc) by (rewrite B1, T1, (Nat.mul_comm _ bdx); symmetry; apply Nat.div_mod; lia).
      assert (Q2 : by_ b * bdy + u / bdx = p) by (rewrite B2, T2, (Nat.mul_comm _ bdy); symmetry; apply Nat.div_mod; lia).
      exists b, u, 2, s. eexists. split; [|split; [cbn; lia|]].
      + apply beam_thread. rewrite Q1, Q2, B3. repeat split; auto.
        * unfold b, block_at. assert (t * gy + p / bdy < gy * gz) by (apply pack_lt; lia). nia.
        * apply pack_lt; auto.
      + cbn [k beam_kernel kn_code]. erewrite map_nth_error; [|rewrite (nth_error_nth' _ 0) by (rewrite seq_length; auto); rewrite seq_nth by auto; reflexivity].
        cbn [Nat.add]. fold (time b) (by_ b) (bx b) ncc. rewrite Q1, Q2, B3.
        replace (((s * a_ntime a + t) * a_na a + p) * ncc + cc) with i by (rewrite I0, I1, I2; ring). reflexivity.
  Qed.
End Beam.

Definition scale_l gx bdx a g b := (IZR (Z.of_nat (a_lw a) - 1) / (ext_seen bdx gx a g b 1%nat - ext_seen bdx gx a g b 0%nat))%R.
Definition scale_m gx bdx a g b := (IZR (Z.of_nat (a_mh a) - 1) / (ext_seen bdx gx a g b 3%nat - ext_seen bdx gx a g b 2%nat))%R.
Theorem beam_leaves bdx bdy gx gy gz a g o : 4 <= bdx -> 0 < bdy -> 0 < gx -> 0 < gy -> a_ncorr a = 2 ^ a_shift a -> (exists q, bdx = q * a_ncorr a) ->
  (forall c, c < a_nchan a * a_ncorr a -> c / bdx < gx) -> (forall p, p < a_na a -> p / bdy < gy) -> a_ntime a <= gz ->
  leaves (beam_kernel true bdx bdy gx gy gz a) (init g o) o (beam_seen bdx bdy gx gy a (scale_l gx bdx a g) (scale_m gx bdx a g) g).
Proof.
  intros. apply (leaves_ok _ (bval bdx bdy gx gy a (scale_l gx bdx a g) (scale_m gx bdx a g) g)); [cbn; lia| |].
  - apply beam_consistent; auto. intros b t _. left. auto.
  - apply beam_covered; auto.
Qed.
