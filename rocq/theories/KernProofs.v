From Coq Require Import Reals Lra.
From Verif Require Import Prelude PreludeFacts CRing CplxR LoopFacts KernModel.
Close Scope R_scope.
Open Scope nat_scope.

Lemma stride_whole os W t : t < os -> stride_len (os * (W + 2)) t os = W + 2.
Proof. intros H. unfold stride_len. symmetry. apply Nat.div_unique with (os - 1 - t); nia. Qed.
Lemma source_at W j : source (W + 2) j = j.
Proof. unfold source. destruct (Nat.eqb_spec (W + 2) 1); [lia|reflexivity]. Qed.
Lemma assign_same n : assignable n n = true.
Proof. unfold assignable. now rewrite Nat.eqb_refl. Qed.
Section Pack.
  Context {A : Type} (junk K : arr A) (W os : nat).
  Lemma pack_spec : exists pk, pack_kernel junk K (os * (W + 2)) W os = Ok pk /\ forall t j, t < os -> j < W + 2 -> pk (t * (W + 2) + j) = K (t + os * j).
  Proof.
    unfold pack_kernel. eexists. split.
    - apply forM_pure with (body' := fun t pkern i => if (t * (W + 2) <=? i) && (i <? (t + 1) * (W + 2)) then K (t + os * (i - t * (W + 2))) else pkern i).
      intros t s Ht. cbv zeta. rewrite stride_whole, assign_same by exact Ht. f_equal.
      assert (E : forall n, n = W + 2 -> (fun i => if (t * (W + 2) <=? i) && (i <? (t + 1) * (W + 2)) then K (t + os * source n (i - t * (W + 2))) else s i) =
        fun i => if (t * (W + 2) <=? i) && (i <? (t + 1) * (W + 2)) then K (t + os * (i - t * (W + 2))) else s i); [|now apply E].
      intros n ->. unfold source. destruct (Nat.eqb_spec (W + 2) 1); [lia|reflexivity].
    - intros t j Ht Hj. rewrite (for_at (fun p : arr A => p (t * (W + 2) + j)) (fun _ => K (t + os * j)) t); auto.
      + intros i s Hi Hit. destruct (Nat.leb_spec (i * (W + 2)) (t * (W + 2) + j)); cbn [andb]; [|reflexivity].
        destruct (Nat.ltb_spec (t * (W + 2) + j) ((i + 1) * (W + 2))); [nia|reflexivity].
      + intros s. destruct (Nat.leb_spec (t * (W + 2)) (t * (W + 2) + j)); [|lia]. destruct (Nat.ltb_spec (t * (W + 2) + j) ((t + 1) * (W + 2))); [|nia].
        cbn [andb]. do 3 f_equal. lia.
  Qed.
  Lemma unpack_spec : exists up, unpack_kernel junk K (os * (W + 2)) W os = Ok up /\ forall t j, t < os -> j < W + 2 -> up (t + os * j) = K (t * (W + 2) + j).
  Proof.
    unfold unpack_kernel. eexists. split.
    - apply forM_pure with (body' := fun t upkern i => if (i <? os * (W + 2)) && (i mod os =? t) then K (t * (W + 2) + i / os) else upkern i).
      intros t s Ht. cbv zeta.
      assert (L : Nat.min ((t + 1) * (W + 2)) (os * (W + 2)) - Nat.min (t * (W + 2)) (os * (W + 2)) = W + 2) by nia.
      rewrite L, assign_same. f_equal.
      unfold source. destruct (Nat.eqb_spec (W + 2) 1); [lia|reflexivity].
    - intros t j Ht Hj. assert (Em : (t + os * j) mod os = t) by (rewrite Nat.mul_comm, Nat.mod_add by lia; apply Nat.mod_small, Ht).
      assert (Ed : (t + os * j) / os = j) by (rewrite Nat.mul_comm, Nat.div_add by lia; rewrite Nat.div_small by exact Ht; reflexivity).
      rewrite (for_at (fun p : arr A => p (t + os * j)) (fun _ => K (t * (W + 2) + j)) t); auto.
      + intros i s Hi Hit. rewrite Em. destruct (Nat.eqb_spec t i); [congruence|]. now rewrite andb_false_r.
      + intros s. rewrite Em, Nat.eqb_refl, Ed. destruct (Nat.ltb_spec (t + os * j) (os * (W + 2))); [reflexivity|nia].
  Qed.
End Pack.
Lemma split_index os W i : i < os * (W + 2) -> exists t j, t < os /\ j < W + 2 /\ i = t + os * j.
Proof.
  intros H. destruct os as [|os]; [lia|]. exists (i mod S os), (i / S os). split; [apply Nat.mod_upper_bound; lia|]. split.
  - apply Nat.div_lt_upper_bound; lia.
  - rewrite Nat.add_comm. apply Nat.div_mod. lia.
Qed.
Lemma unpack_pack {A} (junk junk' K : arr A) W os : exists pk up, pack_kernel junk K (os * (W + 2)) W os = Ok pk /\
  unpack_kernel junk' pk (os * (W + 2)) W os = Ok up /\ forall i, i < os * (W + 2) -> up i = K i.
Proof.
  destruct (pack_spec junk K W os) as (pk & Ep & Hp). destruct (unpack_spec junk' pk W os) as (up & Eu & Hu). exists pk, up. split; [exact Ep|]. split; [exact Eu|].
  intros i Hi. destruct (split_index os W i Hi) as (t & j & Ht & Hj & ->). rewrite Hu, Hp by assumption. reflexivity.
Qed.
Lemma pack_unpack {A} (junk junk' K : arr A) W os : exists up pk, unpack_kernel junk K (os * (W + 2)) W os = Ok up /\
  pack_kernel junk' up (os * (W + 2)) W os = Ok pk /\ forall i, i < os * (W + 2) -> pk i = K i.
Proof.
  destruct (unpack_spec junk K W os) as (up & Eu & Hu). destruct (pack_spec junk' up W os) as (pk & Ep & Hp). exists up, pk. split; [exact Eu|]. split; [exact Ep|].
  intros i Hi. destruct (split_index (W + 2) (os - 2) i) as (j & t & Hj & Ht & E).
  { destruct os as [|[|os]]; [lia| |].
    - cbn in *. nia.
    - replace (S (S os) - 2 + 2) with (S (S os)) by lia. lia. }
  destruct (Nat.lt_ge_cases t os) as [Ht'|Ht'].
  - replace i with (t * (W + 2) + j) by lia. rewrite Hp, Hu by assumption. reflexivity.
  - exfalso. subst i. nia.
Qed.

(* sums of kernels *)
Lemma np_sum_csum n x : np_sum n x = csum (K := RR) n x.
Proof. unfold np_sum. induction n as [|n IH]; [reflexivity|]. rewrite for_S, IH. reflexivity. Qed.
Lemma normalised n (x : arr R) : np_sum n x <> 0%R -> np_sum n (fun i => x i / np_sum n x)%R = 1%R.
Proof.
  intros H. rewrite np_sum_csum. rewrite (csum_ext (K := RR) n (fun i => x i / np_sum n x)%R (fun i => cmul (x i : RR) (/ np_sum n x)%R)) by reflexivity.
  rewrite (csum_mul_r (K := RR) RR_laws n (/ np_sum n x)%R x), <- np_sum_csum. cbn. field. exact H.
Qed.
Lemma np_sinc_even x : np_sinc (- x) = np_sinc x.
Proof.
  unfold np_sinc. destruct (Req_EM_T (- x) 0), (Req_EM_T x 0); try (exfalso; lra); [reflexivity|].
  rewrite Ropp_mult_distr_r_reverse, sin_neg. field. split; [assumption|apply PI_neq0].
Qed.
Lemma half_odd W : Nat.eqb (W mod 2) 1 = true -> (W + 2) / 2 * 2 = W + 1.
Proof.
  intros H. apply Nat.eqb_eq in H. pose proof (Nat.div_mod W 2). replace (W + 2) with (W + 1 * 2) by lia. rewrite Nat.div_add by lia. lia.
Qed.
Lemma uspace_mirror W os u i : 0 < os -> uspace W os = Ok u -> i <= os * (W + 1) -> u (os * (W + 1) - i) = (- u i)%R.
Proof.
  unfold uspace. destruct (Nat.eqb (W mod 2) 1) eqn:E; [|discriminate]. intros Hos H Hi.
  assert (X : forall q, u q = (INR q / INR os - INR ((W + 2) / 2))%R) by (intros q; now inversion H). rewrite !X.
  rewrite minus_INR, mult_INR by exact Hi. apply half_odd in E. apply (f_equal INR) in E. rewrite mult_INR in E. change (INR 2) with 2%R in E.
  rewrite <- E. generalize (INR ((W + 2) / 2)). intros h. field. apply not_0_INR. lia.
Qed.
Lemma sinc_mirror W os a k i : 0 < os -> sinc W os a = Ok k -> i <= os * (W + 1) -> k (os * (W + 1) - i) = k i.
Proof.
  unfold sinc. intros Hos. destruct (uspace W os) as [u|] eqn:E; [|discriminate]. cbn [bind]. intros H Hi. injection H as <-.
  rewrite (uspace_mirror W os u i Hos E Hi), Ropp_mult_distr_l_reverse, np_sinc_even. reflexivity.
Qed.
Lemma hanning_mirror W os a k i : 0 < os -> hanningsinc W os a = Ok k -> i <= os * (W + 1) -> k (os * (W + 1) - i) = k i.
Proof.
  unfold hanningsinc. intros Hos. destruct (uspace W os) as [u|] eqn:E; [|discriminate]. cbn [bind].
  destruct (sinc W os 1) as [s|] eqn:Es; [|discriminate]. cbn [bind]. intros H Hi. injection H as <-.
  rewrite (uspace_mirror W os u i Hos E Hi), (sinc_mirror W os 1 s i Hos Es Hi), Ropp_mult_distr_r_reverse, cos_neg. reflexivity.
Qed.
