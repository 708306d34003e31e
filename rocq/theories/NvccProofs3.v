From Coq Require Import Ascii String.
From Verif Require Import Prelude NvccModel NvccSpec NvccProofs NvccProofs2.
Open Scope list_scope.
Open Scope nat_scope.

(* ---------- matching of lines ---------- *)
Section Lines.
  Context {line groups : Type} (d : line).
  Lemma match_from_spec (rs : list (line -> option groups)) : forall l acc ms, length rs <= length l ->
    (match_from d rs l acc = Some ms <-> exists ms', ms = acc ++ ms' /\ run_matches rs l ms').
  Proof.
    induction rs as [|r rs IH]; intros l acc ms L; cbn [match_from].
    - split; [intros E; injection E as <-; exists []; split; [symmetry; apply app_nil_r|constructor]|]. intros (ms' & -> & R). inversion R; subst. rewrite app_nil_r. reflexivity.
    - destruct l as [|x l]; cbn [length] in L; [lia|]. cbn [hd tl]. destruct (r x) as [m|] eqn:E.
      + rewrite IH by lia. split.
        * intros (ms' & -> & R). exists (m :: ms'). split; [rewrite <- app_assoc; reflexivity|]. constructor; assumption.
        * intros (ms' & -> & R). inversion R as [|r0 x0 m0 rs0 l0 ms0 Em Rm]; subst. exists ms0. split; [rewrite <- app_assoc; cbn [app]; congruence|exact Rm].
      + split; [discriminate|]. intros (ms' & -> & R). inversion R; subst. congruence.
  Qed.
  Lemma match_loop_spec (rs : list (line -> option groups)) l : forall k i, i + k + length rs = length l ->
    (forall ms, match_loop d k i rs l = Some ms -> exists j, i <= j < i + k /\ run_matches rs (skipn j l) ms /\ forall j' ms', i <= j' < j -> ~ run_matches rs (skipn j' l) ms') /\
    (match_loop d k i rs l = None -> forall j ms, i <= j < i + k -> ~ run_matches rs (skipn j l) ms).
  Proof.
    induction k as [|k IH]; intros i L; cbn [match_loop].
    - split; [discriminate|]. intros _ j ms J. lia.
    - assert (Q : forall ms, match_from d rs (skipn i l) [] = Some ms <-> run_matches rs (skipn i l) ms).
      { intros ms. rewrite match_from_spec by (rewrite skipn_length; lia). cbn [app]. split; [intros (ms' & -> & R); exact R|intros R; exists ms; auto]. }
      destruct (match_from d rs (skipn i l) []) as [ms0|] eqn:E.
      + split; [|discriminate]. intros ms F. injection F as <-. exists i. split; [lia|]. split; [apply Q; reflexivity|]. intros; lia.
      + destruct (IH (S i) ltac:(lia)) as [H1 H2].
        assert (N : forall ms, ~ run_matches rs (skipn i l) ms) by (intros ms R; apply Q in R; discriminate). split.
        * intros ms F. destruct (H1 ms F) as (j & J & R & M). exists j. split; [lia|]. split; [exact R|]. intros j' ms' J'. destruct (Nat.eq_dec j' i) as [->|]; [apply N|apply M; lia].
        * intros F j ms J. destruct (Nat.eq_dec j i) as [->|]; [apply N|apply H2; [exact F|lia]].
  Qed.
  Theorem lines_main (lines : list line) (rs : list (line -> option groups)) :
    (forall ms, match_output_lines d lines rs = Some ms ->
       exists i, i + length rs < length lines /\ run_matches rs (skipn i lines) ms /\ forall i' ms', i' < i -> ~ run_matches rs (skipn i' lines) ms') /\
    (match_output_lines d lines rs = None -> forall i ms, i + length rs < length lines -> ~ run_matches rs (skipn i lines) ms).
  Proof.
    unfold match_output_lines. destruct (Nat.ltb_spec (length lines) (length rs)) as [L|L].
    - split; [discriminate|]. intros _ i ms J. lia.
    - destruct (match_loop_spec rs lines (length lines - length rs) 0 ltac:(lia)) as [H1 H2]. split.
      + intros ms E. destruct (H1 ms E) as (j & J & R & M). exists j. split; [lia|]. split; [exact R|]. intros i' ms' I. apply M. lia.
      + intros E i ms J. apply H2; [exact E|lia].
  Qed.
  (* a run of lines at the very end is not found *)
  Theorem last_lines (lines : list line) (rs : list (line -> option groups)) :
    (forall i ms, run_matches rs (skipn i lines) ms -> i + length rs = length lines) -> match_output_lines d lines rs = None.
  Proof.
    intros H. destruct (match_output_lines d lines rs) as [ms|] eqn:E; [|reflexivity]. exfalso.
    destruct (proj1 (lines_main lines rs) ms E) as (i & L & R & _). specialize (H i ms R). lia.
  Qed.
End Lines.

Section Python.
  Context (no_host use_instead : string -> option (list string)) (literal_eval : string -> res cuda_info) (gencode : Z -> string).
  Notation compile_using_nvcc := (compile_using_nvcc no_host use_instead literal_eval gencode).
  Notation cc_compile := (cc_compile no_host use_instead literal_eval gencode).
  Notation perform := (perform no_host use_instead literal_eval gencode).
  Notation history := (history no_host use_instead literal_eval gencode).

  Lemma arch_cached w arch s info : s_info s = Some info -> arch <> None \/ ci_devices info <> [] -> exists a, the_arch literal_eval w arch s = (Ok a, s).
  Proof.
    intros E H. destruct arch as [a|]; cbn [the_arch]; [exists a; reflexivity|]. unfold seq, NvccModel.get_cuda_info, seq, reading. rewrite E. unfold give.
    destruct (ci_devices info) as [|x l]; [destruct H; congruence|]. cbn [map]. eexists. reflexivity.
  Qed.
  Definition reported (r : res unit) (load : res string) : res string :=
    match r with Ok _ => load | Raise (UserExn 13) => Raise TypeError | Raise e => Raise e end.
  Theorem compile_main w o arch stem s dir base info :
    prepared s dir base info -> willing w dir -> arch <> None \/ ci_devices info <> [] ->
    let tmp := w_mkdtemp w 2 in let obj := (chop (pjoin tmp stem) ++ ".o")%string in
    let command := nvcc_command gencode w dir base info tmp stem obj (match o with NoOptions => [] | MyOptions => s_options s end) in
    exists s', compile_using_nvcc w o arch stem ".cu" s = (reported (w_spawn w command) (w_load w obj), s') /\ s_log s' = s_log s ++ [command].
  Proof.
    intros P W A tmp obj command. rewrite compile_parts. unfold seq at 1. destruct (arch_cached w arch s info (proj1 (proj2 (proj2 (proj2 (proj2 P))))) A) as (a & ->).
    assert (G : exists s1 c, get_compiler s = (Ok tt, s1) /\ prepared s1 dir base info /\ s_compiler s1 = c /\ s_log s1 = s_log s /\ s_options s1 = s_options s).
    { unfold get_compiler, seq, reading. destruct (s_compiler s) as [c|] eqn:E; [exists s, (Some c); unfold give; auto|]. eexists _, _. split; [reflexivity|]. split; [exact P|]. repeat split. }
    destruct G as (s1 & c & G1 & P1 & C1 & L1 & O1). unfold seq at 1. rewrite G1. unfold rest. unfold seq at 1.
    assert (ID : include_dirs w s1 = (Ok [pjoin dir "include"], s1)).
    { destruct P1 as (C & D & M & _). unfold include_dirs, seq. rewrite (cached_path w s1 (Some dir) C) by (unfold magic; congruence). destruct (String.eqb_spec dir ""); [congruence|reflexivity]. }
    rewrite ID. unfold seq at 1, reading. rewrite O1. unfold seq at 1.
    set (mine := match o with NoOptions => [] | MyOptions => s_options s end) in *.
    match goal with |- context [match ?p with (_, _) => _ end] => set (pp := p) end.
    assert (PP : exists s2, pp = (Ok (mine ++ ["-cubin"%string]), s2) /\ prepared s2 dir base info /\ s_compiler s2 = c /\ s_log s2 = s_log s).
    { subst pp mine. destruct o; [exists s1; auto|]. destruct (s_options s) as [|x l]; [exists s1; auto|]. eexists. split; [reflexivity|]. split; [exact P1|]. auto. }
    destruct PP as (s2 & -> & P2 & C2 & L2). unfold tempdir, seq at 1, change_to, at_last. unfold job. cbv zeta. fold tmp.
    destruct W as (W1 & W2 & W3 & W4 & W5). unfold seq at 1, ask at 1. rewrite W3. unfold seq at 1, on_error. unfold redirected. rewrite W4. unfold seq at 1, change_to. rewrite W5.
    unfold seq at 1, reading. unfold seq at 1, at_last.
    match goal with |- context [cc_compile ?ww ?td ?st ?ex ?ii ?oo ?s3] => set (s3' := s3) end.
    assert (P3 : prepared s3' dir base info) by exact P2. assert (C3 : s_compiler s3' = c) by exact C2. assert (L3 : s_log s3' = s_log s) by exact L2. clearbody s3'.
    unfold NvccModel.cc_compile. cbn [known existsb String.eqb Ascii.eqb Bool.eqb orb negb]. cbv zeta. unfold seq at 1, change_to. unfold seq at 1.
    match goal with |- context [NvccModel.compile_one _ _ _ _ ?ww ?ob ?sr ?ex ?aa ?bb ?s4] =>
      destruct (one_spawns no_host use_instead literal_eval gencode ww ob sr aa bb s4 dir base info c P3 (conj W1 (conj W2 (conj W3 (conj W4 W5)))) C3) as (s5 & E & L) end.
    cbv zeta in E, L. fold obj in E, L. fold obj. rewrite E.
    match type of E with _ = (w_spawn w ?cm, _) => replace cm with command in * by (unfold command, nvcc_command; rewrite <- !app_assoc; reflexivity) end.
    assert (L' : s_log s5 = s_log s ++ [command]) by (rewrite L; cbn [s_log set_made]; rewrite L3; reflexivity).
    destruct (w_spawn w command) as [u|e].
    - eexists. split; [reflexivity|]. exact L'.
    - destruct e; try (eexists; split; [reflexivity|exact L']). unfold CompileError, fail.
      destruct (Nat.eqb_spec tag 13) as [->|N]; [eexists; split; [reflexivity|exact L']|].
      assert (RP : reported (Raise (UserExn tag)) (w_load w obj) = Raise (UserExn tag)) by (do 14 (destruct tag as [|tag]; try reflexivity); congruence).
      rewrite RP. eexists. split; [reflexivity|exact L'].
  Qed.
  (* the architecture asked for has no effect *)
  Theorem arch_main w o a a' stem ext s : compile_using_nvcc w o (Some a) stem ext s = compile_using_nvcc w o (Some a') stem ext s.
  Proof. reflexivity. Qed.

  (* the caller's list of options *)
  Lemma options_one w a stem ext s : s_options (snd (compile_using_nvcc w MyOptions (Some a) stem ext s)) =
    match s_options s with [] => [] | l => l ++ ["-cubin"%string] end.
  Proof.
    assert (P : plain s_options) by (apply plain_of; reflexivity). assert (T : temps s_options) by (apply temps_other; reflexivity).
    rewrite compile_parts. unfold the_arch, seq at 1, give at 1. unfold seq at 1.
    pose proof (get_compiler_other s_options (fun _ _ => eq_refl) s) as G.
    assert (GO : exists s1, get_compiler s = (Ok tt, s1)). { unfold get_compiler, seq, reading. destruct (s_compiler s); eexists; reflexivity. }
    destruct GO as (s1 & E). rewrite E in *. cbn [snd] in G. unfold rest. unfold seq at 1.
    pose proof (keep_include_dirs s_options w (fun _ _ => eq_refl) s1) as I.
    assert (IO : exists l s2, include_dirs w s1 = (Ok l, s2)).
    { unfold include_dirs, seq, get_cuda_path. destruct (s_cuda_path s1) as [q|]; [|eexists _, _; reflexivity]. destruct (String.eqb q magic); eexists _, _; reflexivity. }
    destruct IO as (l & s2 & E2). rewrite E2 in *. cbn [snd] in I. unfold seq at 1, reading. unfold seq at 1.
    assert (J : forall i o, keep s_options (tempdir (w_mkdtemp w 2) (job no_host use_instead literal_eval gencode w i o stem ext))).
    { intros. apply T. apply keep_job. intros. apply keep_redirected; try reflexivity. apply keep_cc; try reflexivity; assumption. }
    rewrite <- G, <- I. destruct (s_options s2) as [|x m] eqn:Eo.
    - unfold give. rewrite J. exact Eo.
    - unfold seq at 1, change_to, give. rewrite J. reflexivity.
  Qed.
  Theorem options_main h : Forall with_my_options h -> forall s, s_options (history h s) =
    match s_options s with [] => [] | l => l ++ repeat "-cubin"%string (length h) end.
  Proof.
    induction 1 as [|[c w] h (a & stem & ext & E) _ IH]; intros s; cbn [NvccModel.history length repeat].
    - destruct (s_options s); [reflexivity|]. rewrite app_nil_r. reflexivity.
    - cbn [fst] in E. subst c. rewrite IH. cbn [NvccModel.perform]. rewrite ran_snd, options_one. destruct (s_options s) as [|x l]; [reflexivity|].
      cbn [app]. rewrite <- app_assoc. reflexivity.
  Qed.

  (* NVCC set: nothing is compiled *)
  Theorem nvcc_main w o arch stem s : w_nvcc w <> ""%string -> exists e, fst (compile_using_nvcc w o arch stem ".cu" s) = Raise e.
  Proof.
    intros NV. rewrite compile_parts. unfold seq at 1. destruct (the_arch literal_eval w arch s) as [[a|e] s1]; [|exists e; reflexivity].
    unfold seq at 1. destruct (get_compiler s1) as [[u|e] s2]; [|exists e; reflexivity]. unfold rest. unfold seq at 1. destruct (include_dirs w s2) as [[i|e] s3]; [|exists e; reflexivity].
    unfold seq at 1, reading. unfold seq at 1. match goal with |- context [match ?p with (_, _) => _ end] => destruct p as [[oo|e] s4] end; [|exists e; reflexivity].
    unfold tempdir, seq at 1, change_to, at_last. unfold job. cbv zeta. unfold seq at 1, ask at 1. destruct (w_write w); [|eexists; reflexivity]. unfold seq at 1, on_error, redirected.
    destruct (w_dup w); [|eexists; reflexivity]. unfold seq at 1, change_to. destruct (w_open w); [|eexists; reflexivity]. unfold seq at 1, reading. unfold seq at 1, at_last.
    unfold NvccModel.cc_compile. cbn [known existsb String.eqb Ascii.eqb Bool.eqb orb negb]. cbv zeta. unfold seq at 1, change_to. unfold seq at 1.
    unfold NvccModel.compile_one. cbn [negb String.eqb Ascii.eqb Bool.eqb]. unfold seq at 1, reading. unfold at_last. unfold seq at 1. unfold get_nvcc_path at 1.
    destruct (String.eqb_spec (w_nvcc w) ""); [contradiction|]. cbn [negb]. unfold fail at 1. exists AttributeErrorExn. reflexivity.
  Qed.
End Python.

(* ---------- asking for the devices ---------- *)
Section Asking.
  Context (no_host use_instead : string -> option (list string)) (literal_eval : string -> res cuda_info).
  Lemma nvcc_known w s dir : s_cuda_path s = Some dir -> dir <> "NOT_INITIALIZED"%string -> w_nvcc w = ""%string -> there w (pjoin dir "bin/nvcc") ->
    get_nvcc_path w s = (Ok (Some [pjoin dir "bin/nvcc"]), s).
  Proof.
    intros P N V T. unfold get_nvcc_path, seq, get_cuda_path. rewrite V. cbn [String.eqb negb]. rewrite P. unfold magic.
    destruct (String.eqb_spec dir "NOT_INITIALIZED"); [contradiction|]. apply there_dec in T. rewrite T. reflexivity.
  Qed.
  Theorem asked w s dir : s_cuda_path s = Some dir -> dir <> "NOT_INITIALIZED"%string -> w_nvcc w = ""%string -> there w (pjoin dir "bin/nvcc") ->
    s_info s = None ->
    let out := pjoin (w_mkdtemp w 1) "test.out" in
    let command := [pjoin dir "bin/nvcc"; "-o"%string; out; pjoin (w_mkdtemp w 1) "test.cu"] in
    (forall e, w_nvcc_run w command = Raise e -> get_cuda_info literal_eval w s = (Raise e, s)) /\
    (forall done, w_nvcc_run w command = Ok done ->
       (p_code done <> 0%Z -> get_cuda_info literal_eval w s = (Raise RuntimeError, s)) /\
       (p_code done = 0%Z ->
          (forall e, w_stub_run w out = Raise e -> get_cuda_info literal_eval w s = (Raise PlainException, s)) /\
          (forall text, w_stub_run w out = Ok text ->
             (forall e, literal_eval text = Raise e -> get_cuda_info literal_eval w s = (Raise e, s)) /\
             (forall i, literal_eval text = Ok i -> get_cuda_info literal_eval w s = (Ok i, set_info (Some i) s))))).
  Proof.
    intros P N V T I out command.
    assert (G : get_cuda_info literal_eval w s =
      match w_nvcc_run w command with
      | Raise e => (Raise e, s)
      | Ok done => if negb (Z.eqb (p_code done) 0) then (Raise RuntimeError, s) else
          match w_stub_run w out with
          | Raise _ => (Raise PlainException, s)
          | Ok text => match literal_eval text with Raise e => (Raise e, s) | Ok i => (Ok i, set_info (Some i) s) end
          end
      end).
    { unfold get_cuda_info. unfold seq at 1. unfold reading. rewrite I. unfold seq at 1. unfold get_cuda_info_. unfold seq at 1.
      rewrite (nvcc_known w s dir P N V T). unfold tempdir, seq at 1, change_to, at_last, seq, ask. cbn [concat_none app].
      fold out. fold command. destruct (w_nvcc_run w command) as [done|e].
      - destruct (negb (Z.eqb (p_code done) 0)); [cbn; rewrite String.eqb_refl; destruct s; reflexivity|].
        destruct (w_stub_run w out) as [text|e]; [|cbn; rewrite String.eqb_refl; destruct s; reflexivity].
        destruct (literal_eval text) as [i|e]; cbn; rewrite String.eqb_refl; destruct s; reflexivity.
      - cbn. rewrite String.eqb_refl. destruct s. reflexivity. }
    rewrite G. clear G. split; [intros e ->; reflexivity|]. intros done ->. split.
    - intros H. destruct (Z.eqb_spec (p_code done) 0); [contradiction|reflexivity].
    - intros ->. cbn [Z.eqb negb]. split; [intros e ->; reflexivity|]. intros text ->. split; [intros e ->; reflexivity|intros i ->; reflexivity].
  Qed.
  Theorem version_known w s i : s_info s = Some i ->
    get_cuda_info literal_eval w s = (Ok i, s) /\
    ((ci_version i < 8000)%Z -> get_cuda_version literal_eval w s = (Raise ValueError, s)) /\
    ((8000 <= ci_version i)%Z -> get_cuda_version literal_eval w s = (Ok (ci_version i), s)).
  Proof.
    intros I. assert (G : get_cuda_info literal_eval w s = (Ok i, s)) by (unfold get_cuda_info, seq, reading; rewrite I; reflexivity).
    split; [exact G|]. unfold get_cuda_version, seq. rewrite G. destruct (Z.ltb_spec (ci_version i) 8000); split; intros; try lia; reflexivity.
  Qed.
End Asking.
