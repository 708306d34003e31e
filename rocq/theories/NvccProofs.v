From Coq Require Import Ascii String.
From Verif Require Import Prelude NvccModel NvccSpec.
Open Scope list_scope.
Open Scope nat_scope.

(* ---------- parts of the process that stay the same ---------- *)
Definition keep {X A} (f : proc -> X) (m : act A) : Prop := forall s, f (snd (m s)) = f s.
Section Keep.
  Context {X : Type} (f : proc -> X).
  Lemma keep_give {A} (a : A) : keep f (give a). Proof. intros s. reflexivity. Qed.
  Lemma keep_fail {A} e : keep f (@fail A e). Proof. intros s. reflexivity. Qed.
  Lemma keep_ask {A} (r : res A) : keep f (ask r). Proof. intros s. reflexivity. Qed.
  Lemma keep_reading {A} (g : proc -> A) : keep f (reading g). Proof. intros s. reflexivity. Qed.
  Lemma keep_change g : (forall s, f (g s) = f s) -> keep f (change_to g). Proof. intros H s. apply H. Qed.
  Lemma keep_seq {A B} (m : act A) (k : A -> act B) : keep f m -> (forall a, keep f (k a)) -> keep f (seq m k).
  Proof. intros M K s. unfold seq. specialize (M s). destruct (m s) as [[a|e] s1]; cbn [snd] in *; [rewrite K|]; exact M. Qed.
  Lemma keep_last {A} (m : act A) g : keep f m -> (forall s, f (g s) = f s) -> keep f (at_last m g).
  Proof. intros M G s. unfold at_last. specialize (M s). destruct (m s) as [r s1]; cbn [snd] in *. rewrite G. exact M. Qed.
  Lemma keep_error {A} (m : act A) e h : keep f m -> keep f h -> keep f (on_error m e h).
  Proof.
    intros M H s. unfold on_error. specialize (M s). destruct (m s) as [r s1]; cbn [snd] in M.
    destruct r as [a|x]; [exact M|]. destruct x; try exact M. destruct e; try exact M. destruct (Nat.eqb tag tag0); [|exact M]. rewrite H. exact M.
  Qed.
  Lemma keep_tempdir {A} n (m : act A) : (forall x s, f (set_temp x s) = f s) -> keep f m -> keep f (tempdir n m).
  Proof. intros T M. apply keep_seq; [apply keep_change; intros; apply T|]. intros _. apply keep_last; [exact M|intros; apply T]. Qed.
End Keep.
Ltac keeps :=
  repeat first
    [ assumption | apply keep_give | apply keep_fail | apply keep_ask | apply keep_reading | apply keep_change; reflexivity
    | apply keep_seq; [|intros ?] | apply keep_error | apply keep_tempdir; [reflexivity|] | apply keep_last; [|reflexivity]
    | progress cbv beta zeta
    | match goal with |- keep _ (match ?x with _ => _ end) => destruct x end
    | match goal with |- keep _ (if ?x then _ else _) => destruct x end ].
Lemma keep_cuda_path {X} (f : proc -> X) w : (forall x s, f (set_cuda_path x s) = f s) -> keep f (get_cuda_path w).
Proof. intros T s. unfold get_cuda_path. destruct (s_cuda_path s); [|reflexivity]. destruct (String.eqb s0 magic); [apply T|reflexivity]. Qed.
Lemma keep_nvcc_path {X} (f : proc -> X) w : (forall x s, f (set_cuda_path x s) = f s) -> keep f (get_nvcc_path w).
Proof. intros T. pose proof (keep_cuda_path f w T). unfold get_nvcc_path. keeps. Qed.
Lemma keep_include_dirs {X} (f : proc -> X) w : (forall x s, f (set_cuda_path x s) = f s) -> keep f (include_dirs w).
Proof. intros T. pose proof (keep_cuda_path f w T). unfold include_dirs. keeps. Qed.

Section Python.
  Context (no_host use_instead : string -> option (list string)) (literal_eval : string -> res cuda_info) (gencode : Z -> string).
  Notation get_compiler_base_options := (get_compiler_base_options no_host use_instead).
  Notation get_cuda_info := (get_cuda_info literal_eval).
  Notation get_cuda_version := (get_cuda_version literal_eval).
  Notation get_gencode_options := (get_gencode_options literal_eval gencode).
  Notation compile_one := (compile_one no_host use_instead literal_eval gencode).
  Notation cc_compile := (cc_compile no_host use_instead literal_eval gencode).
  Notation compile_using_nvcc := (compile_using_nvcc no_host use_instead literal_eval gencode).
  Notation perform := (perform no_host use_instead literal_eval gencode).
  Notation history := (history no_host use_instead literal_eval gencode).

  Lemma keep_tempdir_temp {A} n (m : act A) : keep s_temp m -> keep s_temp (tempdir n m).
  Proof.
    intros M s. unfold tempdir, seq, change_to, at_last. specialize (M (set_temp (n :: s_temp s) s)).
    destruct (m (set_temp (n :: s_temp s) s)) as [r s1]; cbn [snd] in *. cbn [s_temp set_temp] in *. rewrite M. cbn [drop_one]. rewrite String.eqb_refl. reflexivity.
  Qed.
  (* what does not concern the cached values and the temporary directories *)
  Definition plain {X} (f : proc -> X) : Prop :=
    (forall x s, f (set_cuda_path x s) = f s) /\ (forall x s, f (set_base x s) = f s) /\ (forall x s, f (set_info x s) = f s).
  Definition temps {X} (f : proc -> X) : Prop := forall A n (m : act A), keep f m -> keep f (tempdir n m).
  Lemma temps_temp : temps s_temp. Proof. intros A n m. apply keep_tempdir_temp. Qed.
  Lemma temps_other {X} (f : proc -> X) : (forall x s, f (set_temp x s) = f s) -> temps f.
  Proof. intros T A n m M. apply keep_tempdir; assumption. Qed.

  Section Cached.
    Context {X : Type} (f : proc -> X) (P : plain f) (T : temps f).
    Lemma keep_base_ w : keep f (get_base_options_ no_host use_instead w).
    Proof. destruct P as (P1 & _). pose proof (keep_nvcc_path f w P1). unfold get_base_options_. apply keep_seq; [assumption|intros ?]. apply T. keeps. Qed.
    Lemma keep_base w : keep f (get_compiler_base_options w).
    Proof. pose proof (keep_base_ w). destruct P as (_ & P2 & _). unfold NvccModel.get_compiler_base_options. keeps. apply keep_change. intros. apply P2. Qed.
    Lemma keep_info_ w : keep f (get_cuda_info_ literal_eval w).
    Proof. destruct P as (P1 & _). pose proof (keep_nvcc_path f w P1). unfold get_cuda_info_. apply keep_seq; [assumption|intros ?]. apply T. keeps. Qed.
    Lemma keep_info w : keep f (get_cuda_info w).
    Proof. pose proof (keep_info_ w). destruct P as (_ & _ & P3). unfold NvccModel.get_cuda_info. keeps. apply keep_change. intros. apply P3. Qed.
    Lemma keep_version w : keep f (get_cuda_version w). Proof. pose proof (keep_info w). unfold NvccModel.get_cuda_version. keeps. Qed.
    Lemma keep_gencodes w : keep f (get_gencode_options w). Proof. pose proof (keep_info w). unfold NvccModel.get_gencode_options. keeps. Qed.
    Lemma keep_nvcc w : keep f (get_nvcc_path w). Proof. apply keep_nvcc_path. apply P. Qed.
    Lemma keep_unix w obj src a b : (forall x s, f (set_log x s) = f s) -> keep f (unix_compile w obj src a b).
    Proof. intros L. unfold unix_compile. keeps. apply keep_change. intros. apply L. Qed.
    Lemma keep_compile_one w obj src ext a b : (forall x s, f (set_log x s) = f s) -> (forall x s, f (set_compiler x s) = f s) -> keep f (compile_one w obj src ext a b).
    Proof.
      intros L C. unfold NvccModel.compile_one. destruct (negb _); [apply keep_unix; exact L|]. apply keep_seq; [apply keep_reading|intros old].
      apply keep_last; [|intros; apply C]. apply keep_seq; [apply keep_nvcc|intros n]. apply keep_seq; [apply keep_base|intros o].
      apply keep_seq; [apply keep_change; intros; apply C|intros _]. apply keep_seq; [apply keep_version|intros _]. apply keep_seq; [apply keep_gencodes|intros g]. cbv zeta. apply keep_unix; exact L.
    Qed.
    Lemma keep_cc w d st ext i o : (forall x s, f (set_log x s) = f s) -> (forall x s, f (set_made x s) = f s) -> (forall x s, f (set_compiler x s) = f s) -> keep f (cc_compile w d st ext i o).
    Proof.
      intros L M C. unfold NvccModel.cc_compile. destruct (negb _); [apply keep_fail|]. cbv zeta. apply keep_seq; [apply keep_change; intros; apply M|intros _].
      apply keep_seq; [apply keep_compile_one; assumption|intros _]. apply keep_give.
    Qed.
  End Cached.
  (* the command of the compiler is put back *)
  Lemma compiler_one w obj src ext a b : keep s_compiler (compile_one w obj src ext a b).
  Proof.
    unfold NvccModel.compile_one. destruct (negb _); [apply keep_unix; reflexivity|]. intros s. unfold seq at 1, reading, at_last.
    destruct (seq _ _ _) as [r s1]. reflexivity.
  Qed.
  Lemma compiler_cc w d st ext i o : keep s_compiler (cc_compile w d st ext i o).
  Proof.
    unfold NvccModel.cc_compile. destruct (negb _); [apply keep_fail|]. cbv zeta. apply keep_seq; [apply keep_change; reflexivity|intros _].
    apply keep_seq; [apply compiler_one|intros _]. apply keep_give.
  Qed.
  Lemma keep_redirected {X A} (f : proc -> X) w d (m : act A) : (forall x s, f (set_descriptors x s) = f s) -> (forall x s, f (set_stderr x s) = f s) -> keep f m -> keep f (redirected w d m).
  Proof.
    intros D E M. unfold redirected. destruct (w_dup w); [|apply keep_fail]. apply keep_seq; [apply keep_change; intros; apply D|intros _].
    destruct (w_open w); [|apply keep_fail]. apply keep_seq; [apply keep_reading|intros b]. apply keep_seq; [apply keep_change; intros; rewrite D; apply E|intros _].
    apply keep_last; [exact M|]. intros. rewrite D. apply E.
  Qed.
  Lemma stderr_redirected {A} w d (m : act A) : keep s_stderr (redirected w d m).
  Proof.
    unfold redirected. destruct (w_dup w); [|apply keep_fail]. apply keep_seq; [apply keep_change; reflexivity|intros _].
    destruct (w_open w); [|apply keep_fail]. intros s. unfold seq, reading, change_to, at_last. destruct (m _) as [r s1]. reflexivity.
  Qed.

  (* compile_using_nvcc as a prologue, and a part in a temporary directory *)
  Definition job (w : world) (includes options : list string) (stem ext : string) : act string :=
    let tmpdir := w_mkdtemp w 2 in
    act! _ <- ask (w_write w);
    act! objects <- on_error (redirected w (pjoin tmpdir "stderr.txt") (cc_compile w tmpdir stem ext includes options)) CompileError (fail TypeError);
    match objects with [obj] => ask (w_load w obj) | _ => fail AssertionError end.
  Lemma keep_job {X} (f : proc -> X) w i o stem ext :
    (forall objs, keep f (redirected w (pjoin (w_mkdtemp w 2) "stderr.txt") (cc_compile w (w_mkdtemp w 2) stem ext i objs))) -> keep f (job w i o stem ext).
  Proof. intros R. unfold job. cbv zeta. specialize (R o). apply keep_seq; [apply keep_ask|intros _]. apply keep_seq; [apply keep_error; [exact R|apply keep_fail]|]. intros l. keeps. Qed.
  Definition rest (w : world) (options : options_arg) (stem ext : string) : act string :=
    act! include_dirs <- include_dirs w;
    act! mine <- reading s_options;
    act! options <- (match options, mine with
      | NoOptions, _ | MyOptions, [] => give ["-cubin"%string]
      | MyOptions, _ :: _ => act! _ <- change_to (set_options (mine ++ ["-cubin"%string])); give (mine ++ ["-cubin"%string])
      end);
    tempdir (w_mkdtemp w 2) (job w (include_dirs ++ [w_cupy w]) options stem ext).
  Definition the_arch (w : world) (arch : option Z) : act Z :=
    match arch with
    | Some a => give a
    | None => act! i <- get_cuda_info w; match map architecture (ci_devices i) with [] => fail ValueError | a :: l => give (fold_left Z.min l a) end
    end.
  Lemma compile_parts w o arch stem ext : compile_using_nvcc w o arch stem ext = act! _ <- the_arch w arch; act! _ <- get_compiler; rest w o stem ext.
  Proof. reflexivity. Qed.
  Lemma keep_rest {X} (f : proc -> X) w o stem ext : plain f -> temps f -> (forall x s, f (set_options x s) = f s) ->
    (forall i o, keep f (redirected w (pjoin (w_mkdtemp w 2) "stderr.txt") (cc_compile w (w_mkdtemp w 2) stem ext i o))) -> keep f (rest w o stem ext).
  Proof.
    intros P T O R. unfold rest. apply keep_seq; [apply keep_include_dirs; apply P|intros i]. apply keep_seq; [apply keep_reading|intros mine].
    apply keep_seq; [|intros opts; apply T; apply keep_job; intros; apply R].
    destruct o; [apply keep_give|]. destruct mine; [apply keep_give|]. apply keep_seq; [apply keep_change; intros; apply O|intros _; apply keep_give].
  Qed.
  Lemma keep_arch {X} (f : proc -> X) w arch : plain f -> temps f -> keep f (the_arch w arch).
  Proof. intros P T. unfold the_arch. destruct arch; [apply keep_give|]. apply keep_seq; [apply keep_info; assumption|intros i]. keeps. Qed.
  Lemma keep_ran {X A} (f : proc -> X) (m : act A) s : keep f m -> f (snd (ran m s)) = f s.
  Proof. intros K. unfold ran. specialize (K s). destruct (m s). exact K. Qed.
  Lemma ran_snd {A} (m : act A) s : snd (ran m s) = snd (m s).
  Proof. unfold ran. destruct (m s). reflexivity. Qed.

  Lemma get_compiler_other {X} (f : proc -> X) : (forall x s, f (set_compiler x s) = f s) -> keep f get_compiler.
  Proof. intros C. unfold get_compiler. apply keep_seq; [apply keep_reading|intros [c|]]; [apply keep_give|apply keep_change; intros; apply C]. Qed.
  Lemma keep_perform {X} (f : proc -> X) c w s : plain f -> temps f -> (forall x s, f (set_options x s) = f s) -> (forall x s, f (set_compiler x s) = f s) ->
    (forall stem ext i o, keep f (redirected w (pjoin (w_mkdtemp w 2) "stderr.txt") (cc_compile w (w_mkdtemp w 2) stem ext i o))) ->
    f (snd (perform c w s)) = f s.
  Proof.
    intros P T O C R. destruct c; cbn [NvccModel.perform]; apply keep_ran.
    - apply keep_cuda_path. apply P.
    - apply keep_nvcc; assumption.
    - apply keep_base; assumption.
    - apply keep_info; assumption.
    - apply keep_version; assumption.
    - apply keep_gencodes; assumption.
    - apply get_compiler_other; assumption.
    - rewrite compile_parts. apply keep_seq; [apply keep_arch; assumption|intros _]. apply keep_seq; [apply get_compiler_other; assumption|intros _]. apply keep_rest; auto.
  Qed.
  Lemma plain_of {X} (f : proc -> X) : (forall x s, f (set_cuda_path x s) = f s) -> (forall x s, f (set_base x s) = f s) -> (forall x s, f (set_info x s) = f s) -> plain f.
  Proof. intros. split; auto. Qed.
  Lemma temp_step c w s : s_temp (snd (perform c w s)) = s_temp s.
  Proof.
    apply keep_perform; try reflexivity; [apply plain_of; reflexivity|apply temps_temp|].
    intros. apply keep_redirected; [reflexivity|reflexivity|]. apply keep_cc; try reflexivity; [apply plain_of; reflexivity|apply temps_temp].
  Qed.
  Lemma stderr_step c w s : s_stderr (snd (perform c w s)) = s_stderr s.
  Proof. apply keep_perform; try reflexivity; [apply plain_of; reflexivity|apply temps_other; reflexivity|]. intros. apply stderr_redirected. Qed.
  (* the command of the compiler, which is cc from the first use on *)
  Definition as_cc (c c' : option (option (list string))) : Prop := c' = c \/ (c = None /\ c' = Some (Some ["cc"%string])).
  Lemma compiler_step c w s : as_cc (s_compiler s) (s_compiler (snd (perform c w s))).
  Proof.
    assert (P : plain s_compiler) by (apply plain_of; reflexivity). assert (T : temps s_compiler) by (apply temps_other; reflexivity).
    assert (G : forall s, as_cc (s_compiler s) (s_compiler (snd (get_compiler s)))).
    { intros s0. unfold get_compiler, seq, reading. destruct (s_compiler s0) eqn:E; cbn [snd give change_to]; [left; exact E|right; split; reflexivity]. }
    destruct c; cbn [NvccModel.perform]; rewrite ran_snd.
    - left. apply keep_cuda_path. reflexivity.
    - left. apply keep_nvcc; assumption.
    - left. apply keep_base; assumption.
    - left. apply keep_info; assumption.
    - left. apply keep_version; assumption.
    - left. apply keep_gencodes; assumption.
    - apply G.
    - rewrite compile_parts. unfold seq at 1. pose proof (keep_arch s_compiler w arch P T s) as A. destruct (the_arch w arch s) as [[a|e] s1]; cbn [snd] in *; [|left; exact A].
      unfold seq. specialize (G s1). rewrite A in G. destruct (get_compiler s1) as [[u|e] s2]; cbn [snd] in *; [|exact G].
      rewrite (keep_rest s_compiler w options stem ext P T); [exact G|reflexivity|].
      intros. apply keep_redirected; try reflexivity. apply compiler_cc.
  Qed.

  (* ---------- what is left behind ---------- *)
  Definition grown (s s' : proc) (new : list (list string)) (made : list string) (d : nat) : Prop :=
    s_log s' = s_log s ++ new /\ s_made s' = s_made s ++ made /\ s_descriptors s' = s_descriptors s + d.
  Definition leaves (n : nat) (s s' : proc) : Prop := exists new made d, grown s s' new made d /\ length new <= length made /\ length made <= d /\ d <= n.
  Definition goods (s : proc) : list (list string) * list string * nat := (s_log s, s_made s, s_descriptors s).
  Lemma leaves_same n s s' : goods s' = goods s -> leaves n s s'.
  Proof.
    intros E. unfold goods in E. assert (E1 : s_log s' = s_log s) by congruence. assert (E2 : s_made s' = s_made s) by congruence. assert (E3 : s_descriptors s' = s_descriptors s) by congruence.
    exists [], [], 0. unfold grown. rewrite E1, E2, E3, !app_nil_r. cbn. repeat split; lia.
  Qed.
  Lemma leaves_trans a b s1 s2 s3 : leaves a s1 s2 -> leaves b s2 s3 -> leaves (a + b) s1 s3.
  Proof.
    intros (n1 & m1 & d1 & (G1 & G2 & G3) & L1 & L2 & L3) (n2 & m2 & d2 & (H1 & H2 & H3) & K1 & K2 & K3).
    exists (n1 ++ n2), (m1 ++ m2), (d1 + d2). unfold grown. rewrite H1, H2, H3, G1, G2, G3, !app_assoc, !app_length. repeat split; lia.
  Qed.
  Lemma plain_goods : plain goods. Proof. apply plain_of; reflexivity. Qed.
  Lemma temps_goods : temps goods. Proof. apply temps_other; reflexivity. Qed.
  (* a part that logs at most one command and changes nothing else of these *)
  Definition logs_one {A} (m : act A) : Prop := forall s, exists new, grown s (snd (m s)) new [] 0 /\ length new <= 1.
  Lemma logs_keep {A} (m : act A) : keep goods m -> logs_one m.
  Proof.
    intros K s. specialize (K s). exists []. unfold grown.
    assert (E1 : s_log (snd (m s)) = s_log s) by (unfold goods in K; congruence). assert (E2 : s_made (snd (m s)) = s_made s) by (unfold goods in K; congruence).
    assert (E3 : s_descriptors (snd (m s)) = s_descriptors s) by (unfold goods in K; congruence). rewrite E1, E2, E3, !app_nil_r. cbn. repeat split; lia.
  Qed.
  Lemma logs_seq {A B} (m : act A) (k : A -> act B) : keep goods m -> (forall a, logs_one (k a)) -> logs_one (seq m k).
  Proof.
    intros M K s. unfold seq. specialize (M s). destruct (m s) as [[a|e] s1] eqn:E; cbn [snd] in *.
    - destruct (K a s1) as (new & (G1 & G2 & G3) & L). exists new. split; [|exact L]. unfold grown, goods in *.
      assert (E1 : s_log s1 = s_log s) by congruence. assert (E2 : s_made s1 = s_made s) by congruence. assert (E3 : s_descriptors s1 = s_descriptors s) by congruence.
      rewrite G1, G2, G3, E1, E2, E3. auto.
    - exists []. unfold grown, goods in *. assert (E1 : s_log s1 = s_log s) by congruence. assert (E2 : s_made s1 = s_made s) by congruence. assert (E3 : s_descriptors s1 = s_descriptors s) by congruence.
      rewrite E1, E2, E3, !app_nil_r. cbn. repeat split; lia.
  Qed.
  Lemma logs_unix w obj src a b : logs_one (unix_compile w obj src a b).
  Proof.
    unfold unix_compile. apply logs_seq; [apply keep_reading|intros c]. apply logs_seq; [apply keep_ask|intros command].
    intros s. exists [command]. unfold seq, change_to, ask. cbn. unfold grown. cbn. rewrite app_nil_r. repeat split; lia.
  Qed.
  Lemma logs_one_compile w obj src ext a b : logs_one (compile_one w obj src ext a b).
  Proof.
    pose proof plain_goods as P. pose proof temps_goods as T. unfold NvccModel.compile_one. destruct (negb _); [apply logs_unix|]. apply logs_seq; [apply keep_reading|intros old].
    assert (L : forall (m : act unit), logs_one m -> logs_one (at_last m (set_compiler old))).
    { intros m M s. unfold at_last. destruct (M s) as (new & G & L). exists new. destruct (m s) as [r s1]. exact (conj G L). }
    apply L. apply logs_seq; [apply keep_nvcc; assumption|intros n]. apply logs_seq; [apply keep_base; assumption|intros o].
    apply logs_seq; [apply keep_change; reflexivity|intros _]. apply logs_seq; [apply keep_version; assumption|intros _]. apply logs_seq; [apply keep_gencodes; assumption|intros g]. cbv zeta. apply logs_unix.
  Qed.
  Lemma cc_grown w d st ext i o s : exists new made, grown s (snd (cc_compile w d st ext i o s)) new made 0 /\ length new <= length made /\ length made <= 1.
  Proof.
    unfold NvccModel.cc_compile. destruct (negb _); [exists [], []; unfold grown, fail; cbn [snd length]; rewrite !app_nil_r; repeat split; lia|]. cbv zeta.
    unfold seq at 1, change_to. set (s1 := set_made _ s).
    match goal with |- context [seq ?m ?k s1] => destruct (logs_one_compile w (chop (pjoin d st) ++ ".o")%string (pjoin d st ++ ext)%string ext (map (fun d0 => ("-I" ++ d0)%string) i ++ ["-c"%string]) o s1) as (new & (G1 & G2 & G3) & L) end.
    exists new, [chop d]. unfold seq, give. destruct (compile_one _ _ _ _ _ _ s1) as [[u|e] s2]; cbn [snd] in *; unfold grown; rewrite G1, G2, G3; cbn [s1 set_made s_log s_made s_descriptors]; rewrite ?app_nil_r; subst s1; cbn; repeat split; lia.
  Qed.
  Lemma redirected_leaves w d st ext i o dest s : leaves 1 s (snd (redirected w dest (cc_compile w d st ext i o) s)).
  Proof.
    unfold redirected. destruct (w_dup w); [|apply leaves_same; reflexivity]. unfold seq at 1, change_to. set (s1 := set_descriptors _ s).
    assert (H1 : leaves 1 s s1) by (exists [], [], 1; unfold grown; subst s1; cbn [s_log s_made s_descriptors set_descriptors]; rewrite !app_nil_r; cbn; repeat split; lia).
    destruct (w_open w); [|exact H1]. unfold seq, reading, at_last. set (s2 := set_descriptors _ _).
    destruct (cc_grown w d st ext i o s2) as (new & made & (G1 & G2 & G3) & L1 & L2). destruct (cc_compile w d st ext i o s2) as [r s3]; cbn [snd] in *.
    exists new, made, 1. unfold grown. cbn [s_log s_made s_descriptors set_descriptors set_stderr]. rewrite G1, G2, G3. subst s2 s1. cbn. repeat split; lia.
  Qed.
  Lemma job_leaves w i o stem ext s : leaves 1 s (snd (job w i o stem ext s)).
  Proof.
    unfold job. cbv zeta. unfold seq at 1, ask. destruct (w_write w); [|apply leaves_same; reflexivity]. unfold seq, on_error, fail.
    pose proof (redirected_leaves w (w_mkdtemp w 2) stem ext i o (pjoin (w_mkdtemp w 2) "stderr.txt") s) as R.
    destruct (redirected w _ _ s) as [r s1]; cbn [snd] in R. destruct r as [l|e].
    - destruct l as [|x [|y l]]; exact R.
    - destruct e; try exact R. unfold CompileError. destruct (Nat.eqb tag 13); exact R.
  Qed.
  Lemma rest_leaves w o stem ext s : leaves 1 s (snd (rest w o stem ext s)).
  Proof.
    unfold rest. unfold seq at 1. pose proof (keep_include_dirs goods w (fun _ _ => eq_refl) s) as I. destruct (include_dirs w s) as [[l|e] s1]; cbn [snd] in I; [|apply leaves_same; exact I].
    unfold seq at 1, reading. unfold seq at 1.
    match goal with |- context [match ?p with (_, _) => _ end] => set (pp := p) end.
    assert (M : goods (snd pp) = goods s1). { subst pp. destruct o; [reflexivity|]. destruct (s_options s1); reflexivity. }
    destruct pp as [[opts|e] s2]; cbn [snd] in M; [|apply leaves_same; cbn [snd]; congruence].
    unfold tempdir, seq, change_to, at_last. pose proof (job_leaves w (l ++ [w_cupy w]) opts stem ext (set_temp (w_mkdtemp w 2 :: s_temp s2) s2)) as J.
    destruct (job _ _ _ _ _ _) as [r s3]; cbn [snd] in *. change 1 with (0 + 1). apply (leaves_trans 0 1 s s2); [apply leaves_same; congruence|].
    exact J.
  Qed.
  Lemma step_leaves c w s : leaves (match c with Compile _ _ _ _ => 1 | _ => 0 end) s (snd (perform c w s)).
  Proof.
    pose proof plain_goods as P. pose proof temps_goods as T.
    destruct c; cbn [NvccModel.perform]; rewrite ran_snd.
    - apply leaves_same. apply keep_cuda_path. reflexivity.
    - apply leaves_same. apply keep_nvcc; assumption.
    - apply leaves_same. apply keep_base; assumption.
    - apply leaves_same. apply keep_info; assumption.
    - apply leaves_same. apply keep_version; assumption.
    - apply leaves_same. apply keep_gencodes; assumption.
    - apply leaves_same. apply get_compiler_other. reflexivity.
    - rewrite compile_parts. unfold seq at 1. pose proof (keep_arch goods w arch P T s) as A. destruct (the_arch w arch s) as [[a|e] s1]; cbn [snd] in *; [|apply leaves_same; exact A].
      unfold seq. pose proof (get_compiler_other goods (fun _ _ => eq_refl) s1) as G. destruct (get_compiler s1) as [[u|e] s2]; cbn [snd] in *; [|apply leaves_same; congruence].
      change 1 with (0 + 1). apply (leaves_trans 0 1 s s2); [apply leaves_same; congruence|]. apply rest_leaves.
  Qed.

  (* ---------- histories ---------- *)
  Theorem history_clean h : forall s, s_temp (history h s) = s_temp s /\ s_stderr (history h s) = s_stderr s /\ as_cc (s_compiler s) (s_compiler (history h s)).
  Proof.
    induction h as [|[c w] h IH]; intros s; cbn [NvccModel.history]; [repeat split; left; reflexivity|].
    destruct (IH (snd (perform c w s))) as (A & B & C). rewrite A, B, temp_step, stderr_step. repeat split.
    destruct (compiler_step c w s) as [E|[E1 E2]]; destruct C as [F|[F1 F2]].
    - left. congruence.
    - right. split; congruence.
    - right. split; congruence.
    - congruence.
  Qed.
  Theorem history_leaves h : forall s, leaves (compilations h) s (history h s).
  Proof.
    induction h as [|[c w] h IH]; intros s; cbn [NvccModel.history]; [apply leaves_same; reflexivity|].
    replace (compilations ((c, w) :: h)) with ((match c with Compile _ _ _ _ => 1 | _ => 0 end) + compilations h) by (destruct c; reflexivity).
    eapply leaves_trans; [apply step_leaves|apply IH].
  Qed.
End Python.
