From Coq Require Import Ascii String.
From Verif Require Import Prelude NvccModel NvccSpec NvccProofs.
Open Scope list_scope.
Open Scope nat_scope.

(* ---------- finding CUDA ---------- *)
Lemma there_dec w p : path_exists w p = true <-> there w p.
Proof. unfold path_exists, there. destruct (String.eqb_spec p ""); subst; split; intros; [discriminate|tauto|auto|tauto]. Qed.
Lemma there_not w p : path_exists w p = false <-> ~ there w p.
Proof. rewrite <- there_dec. destruct (path_exists w p); split; congruence. Qed.
Lemma first_some w l f : first_existing w l = Some f <-> exists before after, l = before ++ f :: after /\ there w f /\ forall g, In g before -> ~ there w g.
Proof.
  induction l as [|x l IH]; cbn [first_existing]; [split; [discriminate|intros ([|? ?] & ? & E & _); discriminate]|].
  destruct (path_exists w x) eqn:E.
  - apply there_dec in E. split.
    + intros F. injection F as <-. exists [], l. repeat split; [apply E|apply E|intros g []].
    + intros (b & a & L & T & N). destruct b as [|y b]; cbn [app] in L; [congruence|]. injection L as -> ->. exfalso. apply (N y); [left; reflexivity|exact E].
  - apply there_not in E. rewrite IH. split.
    + intros (b & a & -> & T & N). exists (x :: b), a. repeat split; [apply T|apply T|]. intros g [<-|G]; auto.
    + intros (b & a & L & T & N). destruct b as [|y b]; cbn [app] in L; [injection L as -> ->; contradiction|]. injection L as -> ->. exists b, a. repeat split; [apply T|apply T|]. intros g G. apply N. right. exact G.
Qed.
Lemma first_none w l : first_existing w l = None <-> forall f, In f l -> ~ there w f.
Proof.
  induction l as [|x l IH]; cbn [first_existing]; [split; [intros _ f []|reflexivity]|]. destruct (path_exists w x) eqn:E.
  - split; [discriminate|]. intros N. exfalso. apply (N x); [left; reflexivity|]. apply there_dec. exact E.
  - rewrite IH. apply there_not in E. split; [intros N f [<-|F]; auto|intros N f F; apply N; right; exact F].
Qed.
Lemma candidates_eq w : flat_map (fun p => map (pjoin p) ["nvcc"%string; "nvcc.exe"%string]) (get_path w) = candidates w.
Proof. unfold candidates, get_path. rewrite flat_map_concat_map. reflexivity. Qed.
Lemma path_chosen w s : s_cuda_path s = Some magic -> exists p s', get_cuda_path w s = (Ok p, s') /\ s_cuda_path s' = p /\ chosen w p.
Proof.
  intros M. unfold get_cuda_path. rewrite M, String.eqb_refl. cbv zeta. eexists _, _. split; [reflexivity|]. split; [reflexivity|].
  unfold chosen, search_on_path. rewrite candidates_eq. split.
  - intros T. apply there_dec in T. rewrite T. reflexivity.
  - intros T. apply there_not in T. rewrite T. split.
    + intros f F. apply first_some in F. rewrite F. reflexivity.
    + intros N. apply first_none in N. rewrite N. split; intros L.
      * apply there_dec in L. unfold local_cuda. rewrite L. reflexivity.
      * apply there_not in L. unfold local_cuda. rewrite L. reflexivity.
Qed.

(* ---------- invariants ---------- *)
Definition pres {A} (I : proc -> Prop) (m : act A) : Prop := forall s, I s -> I (snd (m s)).
Section Pres.
  Context (I : proc -> Prop).
  Lemma pres_give {A} (a : A) : pres I (give a). Proof. intros s H. exact H. Qed.
  Lemma pres_fail {A} e : pres I (@fail A e). Proof. intros s H. exact H. Qed.
  Lemma pres_ask {A} (r : res A) : pres I (ask r). Proof. intros s H. exact H. Qed.
  Lemma pres_reading {A} (g : proc -> A) : pres I (reading g). Proof. intros s H. exact H. Qed.
  Lemma pres_change g : (forall s, I s -> I (g s)) -> pres I (change_to g). Proof. intros H s. apply H. Qed.
  Lemma pres_seq {A B} (m : act A) (k : A -> act B) : pres I m -> (forall a, pres I (k a)) -> pres I (seq m k).
  Proof. intros M K s H. unfold seq. specialize (M s H). destruct (m s) as [[a|e] s1]; cbn [snd] in *; [apply K|]; exact M. Qed.
  Lemma pres_last {A} (m : act A) g : pres I m -> (forall s, I s -> I (g s)) -> pres I (at_last m g).
  Proof. intros M G s H. unfold at_last. specialize (M s H). destruct (m s) as [r s1]; cbn [snd] in *. apply G. exact M. Qed.
  Lemma pres_error {A} (m : act A) e h : pres I m -> pres I h -> pres I (on_error m e h).
  Proof.
    intros M H s P. unfold on_error. specialize (M s P). destruct (m s) as [r s1]; cbn [snd] in M.
    destruct r as [a|x]; [exact M|]. destruct x; try exact M. destruct e; try exact M. destruct (Nat.eqb tag tag0); [|exact M]. apply H. exact M.
  Qed.
  Lemma pres_tempdir {A} n (m : act A) : (forall x s, I s -> I (set_temp x s)) -> pres I m -> pres I (tempdir n m).
  Proof. intros T M. apply pres_seq; [apply pres_change; intros; apply T; assumption|]. intros _. apply pres_last; [exact M|intros; apply T; assumption]. Qed.
End Pres.
Ltac press :=
  repeat first
    [ assumption | apply pres_give | apply pres_fail | apply pres_ask | apply pres_reading | solve [apply pres_change; auto]
    | apply pres_seq; [|intros ?] | apply pres_error | apply pres_tempdir; [solve [auto]|] | apply pres_last; [|solve [auto]]
    | progress cbv beta zeta
    | match goal with |- pres _ (match ?x with _ => _ end) => destruct x end
    | match goal with |- pres _ (if ?x then _ else _) => destruct x end ].

Section Python.
  Context (no_host use_instead : string -> option (list string)) (literal_eval : string -> res cuda_info) (gencode : Z -> string).
  Notation get_compiler_base_options := (get_compiler_base_options no_host use_instead).
  Notation get_cuda_info := (get_cuda_info literal_eval).
  Notation get_cuda_version := (get_cuda_version literal_eval).
  Notation get_gencode_options := (get_gencode_options literal_eval gencode).
  Notation compile_one := (compile_one no_host use_instead literal_eval gencode).
  Notation cc_compile := (cc_compile no_host use_instead literal_eval gencode).
  Notation compile_using_nvcc := (compile_using_nvcc no_host use_instead literal_eval gencode).
  Notation perform := (perform no_host use_instead literal_eval gencode).
  Notation history := (history no_host use_instead literal_eval gencode).

  Section Inv.
    Context (I : proc -> Prop).
    Context (It : forall x s, I s -> I (set_temp x s)) (Ie : forall x s, I s -> I (set_stderr x s)) (Id : forall x s, I s -> I (set_descriptors x s)).
    Context (Im : forall x s, I s -> I (set_made x s)) (Il : forall x s, I s -> I (set_log x s)) (Io : forall x s, I s -> I (set_options x s)).
    Context (Ic : forall x s, I s -> I (set_compiler x s)) (Ib : forall x s, I s -> I (set_base x s)).
    Context (Ip : forall w, pres I (get_cuda_path w)) (Ii : forall w, pres I (get_cuda_info w)).
    Lemma pres_nvcc w : pres I (get_nvcc_path w). Proof. pose proof (Ip w). unfold get_nvcc_path. press. Qed.
    Lemma pres_base w : pres I (get_compiler_base_options w).
    Proof. pose proof (pres_nvcc w). unfold NvccModel.get_compiler_base_options, get_base_options_. press. Qed.
    Lemma pres_version w : pres I (get_cuda_version w). Proof. pose proof (Ii w). unfold NvccModel.get_cuda_version. press. Qed.
    Lemma pres_gencodes w : pres I (get_gencode_options w). Proof. pose proof (Ii w). unfold NvccModel.get_gencode_options. press. Qed.
    Lemma pres_perform c w s : I s -> I (snd (perform c w s)).
    Proof.
      pose proof (Ip w) as P1. pose proof (Ii w) as P2. pose proof (pres_nvcc w) as P3. pose proof (pres_base w) as P4. pose proof (pres_version w) as P5. pose proof (pres_gencodes w) as P6.
      assert (P7 : pres I get_compiler) by (unfold get_compiler; press).
      intros H. destruct c; cbn [NvccModel.perform]; rewrite ran_snd; [apply P1|apply P3|apply P4|apply P2|apply P5|apply P6|apply P7|]; try exact H.
      rewrite compile_parts. revert s H.
      change (pres I (act! _ <- the_arch literal_eval w arch; act! _ <- get_compiler; rest no_host use_instead literal_eval gencode w options stem ext)).
      apply pres_seq; [unfold the_arch; press|intros _]. apply pres_seq; [exact P7|intros _].
      unfold rest. apply pres_seq; [unfold include_dirs; press|intros i]. apply pres_seq; [apply pres_reading|intros mine].
      apply pres_seq; [destruct options; press|intros o]. apply pres_tempdir; [exact It|]. unfold job. cbv zeta. apply pres_seq; [apply pres_ask|intros _].
      apply pres_seq; [|intros l; press]. apply pres_error; [|apply pres_fail]. unfold redirected. destruct (w_dup w); [|apply pres_fail]. apply pres_seq; [apply pres_change; auto|intros _].
      destruct (w_open w); [|apply pres_fail]. apply pres_seq; [apply pres_reading|intros b]. apply pres_seq; [apply pres_change; auto|intros _]. apply pres_last; [|auto].
      assert (U : forall obj src a b, pres I (unix_compile w obj src a b)) by (intros; unfold unix_compile; press).
      unfold NvccModel.cc_compile. destruct (negb _); [apply pres_fail|]. cbv zeta. apply pres_seq; [apply pres_change; auto|intros _]. apply pres_seq; [|intros; apply pres_give].
      unfold NvccModel.compile_one. destruct (negb _); [apply U|]. apply pres_seq; [apply pres_reading|intros old]. apply pres_last; [|auto].
      apply pres_seq; [exact P3|intros n]. apply pres_seq; [exact P4|intros bo]. apply pres_seq; [apply pres_change; auto|intros _]. apply pres_seq; [exact P5|intros _]. apply pres_seq; [exact P6|intros g]. cbv zeta. apply U.
    Qed.
    Lemma pres_history h : forall s, I s -> I (history h s).
    Proof. induction h as [|[c w] h IH]; intros s H; cbn [NvccModel.history]; [exact H|]. apply IH. apply pres_perform. exact H. Qed.
  End Inv.

  (* the directory found first stays *)
  Lemma cached_path w s c : s_cuda_path s = c -> c <> Some magic -> get_cuda_path w s = (Ok c, s).
  Proof. intros E N. unfold get_cuda_path. rewrite E. destruct c as [p|]; [|reflexivity]. destruct (String.eqb_spec p magic); [congruence|reflexivity]. Qed.
  Theorem path_main s w : s_cuda_path s = Some magic -> exists p s', get_cuda_path w s = (Ok p, s') /\ chosen w p /\
    (p <> Some magic -> forall h w', fst (get_cuda_path w' (history h s')) = Ok p).
  Proof.
    intros M. destruct (path_chosen w s M) as (p & s' & E & C & CH). exists p, s'. split; [exact E|]. split; [exact CH|]. intros N h w'.
    assert (K : s_cuda_path (history h s') = p).
    { apply (pres_history (fun s => s_cuda_path s = p)); auto.
      - intros v t H. rewrite (cached_path v t p H N). exact H.
      - intros v. assert (NP : pres (fun s => s_cuda_path s = p) (get_nvcc_path v)).
        { assert (GP : pres (fun s => s_cuda_path s = p) (get_cuda_path v)) by (intros t H; rewrite (cached_path v t p H N); exact H). unfold get_nvcc_path. press. }
        unfold NvccModel.get_cuda_info, get_cuda_info_. press. }
    rewrite (cached_path w' _ p K N). reflexivity.
  Qed.

  (* ---------- Python 3 ---------- *)
  Section Python3.
    Context (bytes : forall b, literal_eval b = Raise ValueError).
    Definition stuck {A} (m : act A) (s : proc) : Prop := exists e s', m s = (Raise e, s') /\ s_log s' = s_log s.
    Lemma stuck_seq {A B} (m : act A) (k : A -> act B) s : keep s_log m -> (forall a s1, m s = (Ok a, s1) -> stuck (k a) s1) -> stuck (seq m k) s.
    Proof.
      intros K H. unfold stuck, seq. specialize (K s). destruct (m s) as [[a|e] s1]; cbn [snd] in K.
      - destruct (H a s1 eq_refl) as (e & s' & E & L). exists e, s'. split; [exact E|congruence].
      - exists e, s1. auto.
    Qed.
    Lemma stuck_last {A} (m : act A) g s : (forall s, s_log (g s) = s_log s) -> stuck m s -> stuck (at_last m g) s.
    Proof. intros G (e & s' & E & L). exists e, (g s'). unfold at_last. rewrite E, G. auto. Qed.
    Lemma stuck_tempdir {A} n (m : act A) s : stuck m (set_temp (n :: s_temp s) s) -> stuck (tempdir n m) s.
    Proof. intros H. apply stuck_seq; [apply keep_change; reflexivity|]. intros a s1 E. unfold change_to in E. injection E as _ <-. apply stuck_last; [reflexivity|exact H]. Qed.
    Lemma plain_log : plain s_log. Proof. apply plain_of; reflexivity. Qed.
    Lemma temps_log : temps s_log. Proof. apply temps_other; reflexivity. Qed.
    Lemma info_stuck w s : s_info s = None -> stuck (get_cuda_info w) s.
    Proof.
      intros N. unfold NvccModel.get_cuda_info, seq at 1, reading, stuck. rewrite N.
      change (stuck (act! i <- get_cuda_info_ literal_eval w; act! _ <- change_to (set_info (Some i)); give i) s).
      apply stuck_seq; [apply keep_info_; [apply plain_log|apply temps_log]|]. intros a s1 E. exfalso. revert E. unfold get_cuda_info_, seq at 1.
      destruct (get_nvcc_path w s) as [[n|e] s2]; [|discriminate]. unfold tempdir, seq at 1, change_to, at_last. cbv zeta.
      match goal with |- context [seq ?m ?k ?t] => destruct (seq m k t) as [r s3] eqn:E end. intros F.
      assert (F' : r = Ok a) by congruence. subst r. clear F. revert E. unfold seq, ask. destruct (concat_none n _); [|discriminate]. destruct (w_nvcc_run w _); [|discriminate].
      destruct (negb _); [discriminate|]. destruct (w_stub_run w _); [|discriminate]. rewrite bytes. discriminate.
    Qed.
    Lemma info_none w : pres (fun s => s_info s = None) (get_cuda_info w).
    Proof.
      intros s N. destruct (info_stuck w s N) as (e & s' & E & _). rewrite E. cbn [snd].
      revert E. unfold NvccModel.get_cuda_info, seq at 1, reading. rewrite N. unfold seq at 1.
      assert (P : s_info (snd (get_cuda_info_ literal_eval w s)) = s_info s).
      { unfold get_cuda_info_. apply keep_seq; [apply keep_nvcc_path; reflexivity|intros ?]. apply keep_tempdir; [reflexivity|]. keeps. }
      destruct (get_cuda_info_ literal_eval w s) as [[i|x] s1]; cbn [snd] in P; [discriminate|]. intros F. assert (s' = s1) by congruence. subst s'. congruence.
    Qed.
    Theorem never_info h o : s_info (history h (imported o)) = None.
    Proof.
      apply (pres_history (fun s => s_info s = None)); auto; try reflexivity.
      - intros w s H. rewrite <- H. apply keep_cuda_path. reflexivity.
      - intros w. apply info_none.
    Qed.
    Lemma one_stuck w obj src a b s : s_info s = None -> stuck (compile_one w obj src ".cu" a b) s.
    Proof.
      intros N. unfold NvccModel.compile_one. cbn [negb String.eqb Ascii.eqb Bool.eqb]. unfold seq at 1, reading, stuck.
      match goal with |- exists e s', at_last ?m ?g s = _ /\ _ => change (stuck (at_last m g) s) end. apply stuck_last; [reflexivity|].
      assert (K1 : s_info (snd (get_nvcc_path w s)) = None) by (rewrite keep_nvcc_path; [exact N|reflexivity]).
      apply stuck_seq; [apply keep_nvcc_path; reflexivity|]. intros n s1 E1. rewrite E1 in K1. cbn [snd] in K1.
      assert (K2 : s_info (snd (get_compiler_base_options w s1)) = None).
      { rewrite <- K1. unfold NvccModel.get_compiler_base_options. assert (KB : keep s_info (get_base_options_ no_host use_instead w)).
        { unfold get_base_options_. apply keep_seq; [apply keep_nvcc_path; reflexivity|intros ?]. apply keep_tempdir; [reflexivity|]. keeps. }
        assert (KK : keep s_info (act! cached <- reading s_base; match cached with Some o => give o | None => act! o <- get_base_options_ no_host use_instead w; act! _ <- change_to (set_base (Some o)); give o end)) by keeps.
        apply KK. }
      apply stuck_seq; [apply keep_base; [apply plain_log|apply temps_log]|]. intros o s2 E2. rewrite E2 in K2. cbn [snd] in K2.
      apply stuck_seq; [apply keep_change; reflexivity|]. intros u s3 E3. unfold change_to in E3. injection E3 as _ <-.
      destruct (info_stuck w (set_compiler (Some n) s2) K2) as (e & s' & E & L). exists e, s'. split; [|exact L].
      unfold NvccModel.get_cuda_version, seq. rewrite E. reflexivity.
    Qed.
    Theorem never_compiles h o w opts arch stem : let s := history h (imported o) in
      exists e s', compile_using_nvcc w opts arch stem ".cu" s = (Raise e, s') /\ s_log s' = s_log s.
    Proof.
      intros s. pose proof (never_info h o) as N. fold s in N. clearbody s.
      change (stuck (compile_using_nvcc w opts arch stem ".cu") s). rewrite compile_parts.
      apply stuck_seq; [apply keep_arch; [apply plain_log|apply temps_log]|]. intros a s1 E1.
      assert (N1 : s_info s1 = None).
      { destruct arch as [z|]; cbn [the_arch] in E1; [unfold give in E1; congruence|]. destruct (info_stuck w s N) as (e & s' & E & _). unfold seq in E1. rewrite E in E1. discriminate. }
      apply stuck_seq; [apply get_compiler_other; reflexivity|]. intros u s2 E2.
      assert (N2 : s_info s2 = None). { replace s2 with (snd (get_compiler s1)) by (rewrite E2; reflexivity). rewrite (get_compiler_other s_info); [exact N1|reflexivity]. }
      unfold rest. apply stuck_seq; [apply keep_include_dirs; reflexivity|]. intros i s3 E3.
      assert (N3 : s_info s3 = None). { replace s3 with (snd (include_dirs w s2)) by (rewrite E3; reflexivity). rewrite keep_include_dirs; [exact N2|reflexivity]. }
      apply stuck_seq; [apply keep_reading|]. intros mine s4 E4. unfold reading in E4. assert (s4 = s3) by congruence. subst s4. clear E4.
      apply stuck_seq; [destruct opts; keeps|]. intros os s5 E5.
      assert (N5 : s_info s5 = None). { destruct opts; [unfold give in E5; congruence|]. destruct mine; [unfold give in E5; congruence|]. unfold seq, change_to, give in E5. assert (s5 = set_options ((s0 :: mine) ++ ["-cubin"%string]) s3) by congruence. subst s5. exact N3. }
      apply stuck_tempdir. unfold job. cbv zeta. apply stuck_seq; [apply keep_ask|]. intros v s6 E6. unfold ask in E6. assert (s6 = set_temp (w_mkdtemp w 2 :: s_temp s5) s5) by congruence. subst s6. clear E6.
      assert (N6 : s_info (set_temp (w_mkdtemp w 2 :: s_temp s5) s5) = None) by exact N5. set (s6 := set_temp _ s5) in *. clearbody s6.
      assert (R : stuck (redirected w (pjoin (w_mkdtemp w 2) "stderr.txt") (cc_compile w (w_mkdtemp w 2) stem ".cu" (i ++ [w_cupy w]) os)) s6).
      { unfold redirected. destruct (w_dup w); [|exists NameError, s6; auto]. apply stuck_seq; [apply keep_change; reflexivity|]. intros q s7 E7. unfold change_to in E7. injection E7 as _ <-.
        destruct (w_open w); [|eexists NameError, _; split; reflexivity]. apply stuck_seq; [apply keep_reading|]. intros b s8 E8. unfold reading in E8. injection E8 as _ <-.
        apply stuck_seq; [apply keep_change; reflexivity|]. intros q' s9 E9. unfold change_to in E9. injection E9 as _ <-. apply stuck_last; [reflexivity|].
        unfold NvccModel.cc_compile. cbn [known existsb String.eqb Ascii.eqb Bool.eqb orb negb]. cbv zeta. apply stuck_seq; [apply keep_change; reflexivity|]. intros q2 sa Ea. unfold change_to in Ea. injection Ea as _ <-.
        match goal with |- stuck (seq (NvccModel.compile_one _ _ _ _ _ ?obj ?src _ ?a ?b) _) ?t => destruct (one_stuck w obj src a b t N6) as (e & s' & E & L) end. exists e, s'. split; [|exact L]. unfold seq. rewrite E. reflexivity. }
      destruct R as (e & s' & E & L). unfold stuck, seq, on_error. rewrite E. unfold CompileError, fail. destruct e; try (eexists _, _; split; [reflexivity|exact L]).
      destruct (Nat.eqb tag 13); eexists _, _; (split; [reflexivity|exact L]).
    Qed.
  End Python3.

  (* ---------- a compilation ---------- *)
  Lemma one_spawns w obj src a b s dir base info c : prepared s dir base info -> willing w dir -> s_compiler s = c ->
    let command := [pjoin dir "bin/nvcc"] ++ (base ++ a) ++ [src; "-o"%string; obj] ++ map (fun d => gencode (architecture d)) (ci_devices info) ++ ["-O2"%string; "--compiler-options=""-fPIC"""%string] ++ b in
    exists s', compile_one w obj src ".cu" a b s = (w_spawn w command, s') /\ s_log s' = s_log s ++ [command].
  Proof.
    intros (C & D & M & B & Inf & V) (NV & TH & _) Ec command. unfold NvccModel.compile_one. cbn [negb String.eqb Ascii.eqb Bool.eqb].
    assert (NP : forall t, s_cuda_path t = Some dir -> get_nvcc_path w t = (Ok (Some [pjoin dir "bin/nvcc"]), t)).
    { intros t T. unfold get_nvcc_path. rewrite NV. cbn [String.eqb negb]. unfold seq. rewrite (cached_path w t (Some dir) T) by (unfold magic; congruence). apply there_dec in TH. rewrite TH. reflexivity. }
    unfold seq at 1, reading. unfold at_last. unfold seq at 1. rewrite (NP s C). unfold seq at 1. unfold NvccModel.get_compiler_base_options at 1, seq at 1, reading. rewrite B. unfold give at 1.
    unfold seq at 1, change_to. unfold seq at 1. unfold NvccModel.get_cuda_version at 1, seq at 1. unfold NvccModel.get_cuda_info at 1, seq at 1, reading. cbn [s_info set_compiler]. rewrite Inf. unfold give at 1.
    destruct (Z.ltb_spec (ci_version info) 8000); [lia|]. unfold give at 1. unfold seq at 1. unfold NvccModel.get_gencode_options at 1, seq at 1. unfold NvccModel.get_cuda_info at 1, seq at 1, reading. cbn [s_info set_compiler]. rewrite Inf. unfold give at 1 2. cbv zeta.
    unfold unix_compile, seq, reading, change_to, ask. cbn [s_compiler set_compiler concat_none].
    eexists. split; [f_equal; f_equal|reflexivity]. 
  Qed.
End Python.
