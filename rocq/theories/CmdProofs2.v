From Coq Require Import String ZArith QArith Lia Permutation.
From Verif Require Import Prelude CmdModel CmdSpec CmdProofs.
Close Scope Q_scope.
Close Scope Z_scope.
Open Scope nat_scope.

Lemma andthen_Ok {A B} (x : run A) (f : A -> run B) b t : andthen x f = (Ok b, t) <-> exists a t1 t2, x = (Ok a, t1) /\ f a = (Ok b, t2) /\ t = t1 ++ t2.
Proof.
  destruct x as [[a|e] t1]; cbn.
  - destruct (f a) as [r t2] eqn:Ef. split.
    + intros E. injection E as -> <-. exists a, t1, t2. now rewrite Ef.
    + intros (a' & s1 & s2 & E & E2 & ->). injection E as <- <-. rewrite Ef in E2. now injection E2 as -> ->.
  - split; [discriminate|]. intros (a' & s1 & s2 & E & _). discriminate.
Qed.
Section Eval.
  Variable es : bool.
  Variable builtin : string -> list value -> list (option string * value) -> res value.
  Local Notation ev := (eval_value es builtin).
  Fixpoint evs (l : list expr) : run (list value) :=
    match l with [] => ret (Ok []) | e :: l => andthen (ev e) (fun v => andthen (evs l) (fun vs => ret (Ok (v :: vs)))) end.
  Fixpoint named (l : list (option string * expr)) : run (list (option string * value)) :=
    match l with [] => ret (Ok []) | (x, e) :: l => andthen (ev e) (fun v => andthen (named l) (fun vs => ret (Ok ((x, v) :: vs)))) end.
  Lemma eval_call f args kws : ev (ECall (EName f) args kws) =
    if negb (whitelisted f) then ret (Raise ValueError) else andthen (evs args) (fun vs => andthen (named kws) (fun ks => (builtin f vs ks, [(f, vs, ks)]))).
  Proof. reflexivity. Qed.
  Lemma eval_lit e : (forall f a k, e <> ECall f a k) -> ev e = ret (literal_eval es e).
  Proof. destruct e; try reflexivity. intros H. now destruct (H e args kws). Qed.
  Lemma whitelist_slice f : whitelisted f = true <-> f = "slice"%string.
  Proof. unfold whitelisted, whitelist. cbn. rewrite Bool.orb_false_r. apply String.eqb_eq. Qed.

  (* everything called is slice *)
  Definition sliced (t : list call) : Prop := Forall (fun c => fst (fst c) = "slice"%string) t.
  Lemma andthen_trace {A B} (x : run A) (f : A -> run B) : sliced (snd x) -> (forall a, sliced (snd (f a))) -> sliced (snd (andthen x f)).
  Proof. intros H1 H2. destruct x as [[a|e] t]; cbn in *; [|exact H1]. specialize (H2 a). destruct (f a). cbn in *. now apply Forall_app. Qed.
  Lemma eval_trace e : sliced (snd (ev e)).
  Proof.
    induction e as [c|l IH|l IH|l IH|l IH|op e IH|op l r IHl IHr|n|e n IH|f args kws IHf IHa IHk|e IH|l IH] using expr_nested; try (constructor; fail).
    destruct f; try (constructor; fail). rewrite eval_call. destruct (whitelisted x) eqn:W; [|constructor]. apply whitelist_slice in W as ->. cbn [negb].
    apply andthen_trace.
    - clear IHk. induction IHa as [|e l He _ IH]; [constructor|]. cbn [evs]. apply andthen_trace; [exact He|]. intros v. apply andthen_trace; [exact IH|constructor].
    - intros vs. apply andthen_trace.
      + induction IHk as [|[x e] l He _ IH]; [constructor|]. cbn [named]. apply andthen_trace; [exact He|]. intros v. apply andthen_trace; [exact IH|constructor].
      + intros ks. constructor; [reflexivity|constructor].
  Qed.
  Hypothesis Hb : forall args kws, builtin "slice" args kws = py_slice args kws.

  Lemma slice_ok vs v : py_slice vs [] = Ok v <-> exists a b c, slice_args vs a b c /\ v = VSlice a b c.
  Proof.
    split.
    - destruct vs as [|a [|b [|c [|d r]]]]; cbn; try discriminate; intros E; injection E as <-; repeat eexists; constructor.
    - intros (a & b & c & H & ->). destruct H; reflexivity.
  Qed.
  Lemma denotes_call f args kws v : denotes es (ECall f args kws) v -> f = EName "slice" /\ kws = [] /\ exists vs a b c, Forall2 (denotes es) args vs /\ slice_args vs a b c /\ v = VSlice a b c.
  Proof. intros H. inversion H as [? ? _ H2|? vs a b c H1 H2]; subst; [now destruct (H2 f args kws)|]. split; [reflexivity|]. split; [reflexivity|]. now exists vs, a, b, c. Qed.
  Lemma eval_ok e : forall v, fst (ev e) = Ok v <-> denotes es e v.
  Proof.
    assert (Lit : forall e v, (forall f a k, e <> ECall f a k) -> (fst (ev e) = Ok v <-> denotes es e v)).
    { intros e0 v Hc. rewrite (eval_lit e0 Hc). cbn [fst ret]. rewrite literal_ok. split; [intros H; now constructor|]. intros H. destruct H; [assumption|]. now destruct (Hc (EName "slice") args []). }
    induction e as [c|l IH|l IH|l IH|l IH|op e IH|op l r IHl IHr|n|e n IH|f args kws IHf IHa IHk|e IH|l IH] using expr_nested; intros v; try (apply Lit; discriminate).
    split.
    - destruct f; try discriminate. rewrite eval_call. destruct (whitelisted x) eqn:W; [|discriminate]. apply whitelist_slice in W as ->. cbn [negb]. intros E.
      destruct (andthen _ _) as [r t] eqn:E2. cbn [fst] in E. subst r. apply andthen_Ok in E2 as (vs & t1 & t2 & E1 & E2 & ->). apply andthen_Ok in E2 as (ks & t3 & t4 & E3 & E4 & ->).
      injection E4 as E4 <-. rewrite Hb in E4.
      assert (ks = [] /\ kws = []). { destruct ks as [|k0 ks]; [|cbn in E4; destruct vs as [|? [|? [|? [|? ?]]]]; discriminate]. split; [reflexivity|]. destruct kws as [|[k1 e1] kws]; [reflexivity|]. cbn [named] in E3. apply andthen_Ok in E3 as (? & ? & ? & _ & E3 & _). apply andthen_Ok in E3 as (? & ? & ? & _ & E3 & _). discriminate E3. }
      destruct H as [-> ->]. apply slice_ok in E4 as (a & b & c & Hs & ->). econstructor; [|exact Hs]. clear - E1 IHa. revert vs t1 E1. induction IHa as [|e l He _ IH]; cbn [evs]; intros vs t1 E1.
      + injection E1 as <- _. constructor.
      + apply andthen_Ok in E1 as (v & s1 & s2 & Ev & E1 & _). apply andthen_Ok in E1 as (ws & s3 & s4 & Ew & E1 & _). injection E1 as <- _. constructor; [apply He; now rewrite Ev|eapply IH; eassumption].
    - intros H. apply denotes_call in H as (-> & -> & vs & a & b & c & Ha & Hs & ->). rewrite eval_call. cbn [negb whitelisted whitelist existsb String.eqb]. 
      assert (E : exists t, evs args = (Ok vs, t)).
      { clear Hs IHf IHk. induction Ha as [|e v l ws Hv _ IH]; cbn [evs]; [now exists []|]. inversion IHa as [|? ? He Hl]; subst. destruct (IH Hl) as (t & Et). apply He in Hv. destruct (ev e) as [r t0]. cbn in Hv. subst r. rewrite Et. cbn. eexists. reflexivity. }
      destruct E as (t & E). change (negb (whitelisted "slice")) with false. cbv beta iota. rewrite E. cbn [andthen named ret]. rewrite Hb. cbn [fst]. destruct Hs; reflexivity.
  Qed.
  (* errors: those of literals, slice called wrongly, and calling something that is no name *)
  Lemma andthen_err {A B} (x : run A) (f : A -> run B) (P : exn -> Prop) : (forall e, fst x = Raise e -> P e) -> (forall a e, fst x = Ok a -> fst (f a) = Raise e -> P e) -> forall e, fst (andthen x f) = Raise e -> P e.
  Proof. intros H1 H2 e E. destruct x as [[a|e0] t]; cbn in *; [|injection E as <-; now apply H1]. specialize (H2 a e eq_refl). destruct (f a). cbn in *. auto. Qed.
  Lemma eval_err e : forall x, fst (ev e) = Raise x -> x = ValueError \/ x = TypeError \/ x = AttributeErrorExn.
  Proof.
    assert (Lit : forall e x, (forall f a k, e <> ECall f a k) -> fst (ev e) = Raise x -> x = ValueError \/ x = TypeError \/ x = AttributeErrorExn).
    { intros e0 x Hc. rewrite (eval_lit e0 Hc). cbn [fst ret]. intros E. apply literal_err in E as [->| ->]; auto. }
    induction e as [c|l IH|l IH|l IH|l IH|op e IH|op l r IHl IHr|n|e n IH|f args kws IHf IHa IHk|e IH|l IH] using expr_nested; intros x0; try (apply Lit; discriminate).
    destruct f; try (cbn; intros E; injection E as <-; auto). rewrite eval_call. destruct (whitelisted x) eqn:W; [|cbn; intros E; injection E as <-; auto]. apply whitelist_slice in W as ->. cbn [negb]. revert x0.
    apply andthen_err.
    - clear IHk. induction IHa as [|e l He _ IH]; [discriminate|]. cbn [evs]. apply andthen_err; [exact He|]. intros v x _. revert x. apply andthen_err; [exact IH|discriminate].
    - intros vs x _. revert x. apply andthen_err.
      + induction IHk as [|[x e] l He _ IH]; [discriminate|]. cbn [named]. apply andthen_err; [exact He|]. intros v y _. revert y. apply andthen_err; [exact IH|discriminate].
      + intros ks x _. cbn [fst]. rewrite Hb. unfold py_slice. destruct ks; [|intros E; destruct vs as [|? [|? [|? [|? ?]]]]; injection E as <-; auto]. destruct vs as [|? [|? [|? [|? ?]]]]; try discriminate; intros E; injection E as <-; auto.
  Qed.
  Lemma data_plain v : data v -> plain v.
  Proof.
    induction v as [c|vs IH|vs IH|vs IH|items IH|a b c _ _ _|n] using value_nested; intros H; inversion H; subst; constructor; rewrite Forall_forall in *; auto.
    intros kv Hkv. match goal with H : forall x, In x items -> data _ /\ _ |- _ => destruct (H kv Hkv) end. destruct (IH kv Hkv). auto.
  Qed.
  Lemma denotes_plain e : forall v, denotes es e v -> plain v.
  Proof.
    induction e as [c|l IH|l IH|l IH|l IH|op e IH|op l r IHl IHr|n|e n IH|f args kws IHf IHa IHk|e IH|l IH] using expr_nested; intros v H; try (inversion H; subst; match goal with H : literal _ _ _ |- _ => apply literal_data in H; now apply data_plain end).
    apply denotes_call in H as (-> & -> & vs & a & b & c & Ha & Hs & ->). assert (P : Forall plain vs). { clear Hs IHf IHk. induction Ha; [constructor|]. inversion IHa; subst. constructor; auto. }
    destruct Hs; repeat match goal with H : Forall plain (_ :: _) |- _ => inversion H; subst; clear H end; repeat constructor; assumption.
  Qed.

  (* ---- assignment ---- *)
  Lemma names_map ts xs : names ts = Some xs <-> ts = map TName xs.
  Proof.
    revert xs. induction ts as [|t ts IH]; intros xs; cbn.
    - split; [intros E; now injection E as <-|]. destruct xs; [reflexivity|discriminate].
    - destruct t as [x| | |]; try (split; [discriminate|destruct xs; discriminate]). destruct (names ts) as [ys|].
      + split; [intros E; injection E as <-; cbn; f_equal; now apply IH|]. destruct xs as [|y xs]; [discriminate|]. cbn. intros E. injection E as -> E. apply IH in E. injection E as ->. reflexivity.
      + split; [discriminate|]. destruct xs as [|y xs]; [discriminate|]. cbn. intros E. injection E as -> E. apply IH in E. discriminate.
  Qed.
  Fixpoint sets (d : dict) (bs : list (string * value)) : dict := match bs with [] => d | (x, v) :: bs => sets (set_item d x v) bs end.
  Lemma sets_app d a b : sets d (a ++ b) = sets (sets d a) b.
  Proof. revert d. induction a as [|[x v] a IH]; intros d; [reflexivity|apply IH]. Qed.
  Lemma set_items_combine d xs vs : set_items d xs vs = sets d (combine xs vs).
  Proof. revert d vs. induction xs as [|x xs IH]; intros d vs; [reflexivity|]. destruct vs; [reflexivity|]. cbn. apply IH. Qed.
  Lemma assign_ok d t v d' : assign d t v = Ok d' <-> exists b, binds t v b /\ d' = sets d b.
  Proof.
    assert (N : forall ts (k : list target -> target), (forall xs, length xs = length (elements v) -> binds (k (map TName xs)) v (combine xs (elements v))) ->
      (forall b, binds (k ts) v b -> exists xs, ts = map TName xs /\ length xs = length (elements v) /\ b = combine xs (elements v)) ->
      (match names ts with None => Raise ValueError | Some xs => let el := match v with VTuple vs | VList vs => vs | _ => [v] end in if Nat.eqb (length xs) (length el) then Ok (set_items d xs el) else Raise ValueError end = Ok d' <-> exists b, binds (k ts) v b /\ d' = sets d b)).
    { intros ts k H1 H2. fold (elements v). cbv zeta. split.
      - destruct (names ts) as [xs|] eqn:En; [|discriminate]. apply names_map in En as ->. destruct (Nat.eqb_spec (length xs) (length (elements v))) as [L|L]; [|discriminate]. intros E. injection E as <-. exists (combine xs (elements v)). split; [now apply H1|apply set_items_combine].
      - intros (b & Hb' & ->). destruct (H2 b Hb') as (xs & -> & L & ->). assert (En : names (map TName xs) = Some xs) by now apply names_map. rewrite En, L, Nat.eqb_refl. f_equal. apply set_items_combine. }
    destruct t as [x|ts|ts|]; cbn [assign].
    - split; [intros E; injection E as <-; exists [(x, v)]; split; [constructor|reflexivity]|]. intros (b & Hb' & ->). inversion Hb'; subst. reflexivity.
    - apply (N ts TTuple); [intros; now constructor|]. intros b Hb'. inversion Hb' as [|xs ? L|]; subst. now exists xs.
    - apply (N ts TList); [intros; now constructor|]. intros b Hb'. inversion Hb' as [| |xs ? L]; subst. now exists xs.
    - split; [discriminate|]. intros (b & Hb' & _). inversion Hb'.
  Qed.
  Lemma assigns_ok d ts v d' : assigns d ts v = Ok d' <-> exists b, binds_all ts v b /\ d' = sets d b.
  Proof.
    revert d. induction ts as [|t ts IH]; intros d; cbn [assigns].
    - split; [intros E; injection E as <-; exists []; split; [constructor|reflexivity]|]. intros (b & Hb' & ->). inversion Hb'; subst. reflexivity.
    - rewrite bind_Ok. split.
      + intros (d1 & E1 & E2). apply assign_ok in E1 as (b & Hb1 & ->). apply IH in E2 as (bs & Hb2 & ->). exists (b ++ bs). split; [now constructor|]. now rewrite sets_app.
      + intros (b & Hb' & ->). inversion Hb' as [|? ? ? b1 b2 H1 H2]; subst. exists (sets d b1). split; [apply assign_ok; now exists b1|]. apply IH. exists b2. split; [exact H2|apply sets_app].
  Qed.
  Lemma fst_andthen {A B} (x : run A) (f : A -> run B) : fst (andthen x f) = bind (fst x) (fun a => fst (f a)).
  Proof. destruct x as [[a|e] t]; cbn; [|reflexivity]. now destruct (f a). Qed.
  Lemma statements_ok d ss d' : fst (statements es builtin d ss) = Ok d' <-> exists bs, program es ss bs /\ d' = sets d bs.
  Proof.
    revert d. induction ss as [|s ss IH]; intros d; cbn [statements].
    - split; [intros E; injection E as <-; exists []; split; [constructor|reflexivity]|]. intros (b & Hp & ->). inversion Hp; subst. reflexivity.
    - destruct s as [ts e|]; [|split; [discriminate|intros (b & Hp & _); inversion Hp]]. rewrite fst_andthen, bind_Ok. split.
      + intros (v & Ev & E). rewrite fst_andthen in E. apply bind_Ok in E as (d1 & E1 & E2). cbn [ret fst] in E1. apply eval_ok in Ev. apply assigns_ok in E1 as (b & Hb1 & ->). apply IH in E2 as (bs & Hp & ->).
        exists (b ++ bs). split; [econstructor; eassumption|]. now rewrite sets_app.
      + intros (b & Hp & ->). inversion Hp as [|? ? v b1 ? b2 H1 H2 H3]; subst. exists v. split; [now apply eval_ok|]. rewrite fst_andthen. apply bind_Ok. exists (sets d b1). split; [cbn; apply assigns_ok; now exists b1|]. apply IH. exists b2. split; [exact H3|apply sets_app].
  Qed.
  Lemma lookup_set d x v y : lookup (set_item d x v) y = if String.eqb x y then Some v else lookup d y.
  Proof.
    induction d as [|[z w] d IH]; cbn; [reflexivity|]. destruct (String.eqb_spec z x) as [->|N]; cbn.
    - now destruct (String.eqb x y).
    - destruct (String.eqb_spec z y) as [->|]; [|exact IH]. now rewrite (proj2 (String.eqb_neq x y)) by congruence.
  Qed.
  Lemma lookup_sets d bs y : lookup (sets d bs) y = match last_binding bs y with Some v => Some v | None => lookup d y end.
  Proof.
    revert d. induction bs as [|[x v] bs IH]; intros d; cbn; [reflexivity|]. rewrite IH, lookup_set. destruct (last_binding bs y); [reflexivity|]. now destruct (String.eqb x y).
  Qed.
  Lemma set_keys d x v : map fst (set_item d x v) = map fst d \/ (map fst (set_item d x v) = map fst d ++ [x] /\ ~ In x (map fst d)).
  Proof.
    induction d as [|[z w] d IH]; cbn; [right; split; [reflexivity|easy]|]. destruct (String.eqb_spec z x) as [->|N]; cbn; [now left|]. destruct IH as [->|[-> H]]; [now left|right; split; [reflexivity|intros [E|E]; [now apply N|auto]]].
  Qed.
  Lemma set_nodup d x v : NoDup (map fst d) -> NoDup (map fst (set_item d x v)).
  Proof. intros H. destruct (set_keys d x v) as [->|[-> Hn]]; [exact H|]. eapply Permutation_NoDup; [apply Permutation_app_comm|]. cbn. now constructor. Qed.
  Lemma sets_nodup d bs : NoDup (map fst d) -> NoDup (map fst (sets d bs)).
  Proof. revert d. induction bs as [|[x v] bs IH]; intros d H; [exact H|]. cbn. apply IH. now apply set_nodup. Qed.
  Lemma statements_trace d ss : sliced (snd (statements es builtin d ss)).
  Proof.
    revert d. induction ss as [|s ss IH]; intros d; cbn [statements]; [constructor|]. destruct s; [|constructor]. apply andthen_trace; [apply eval_trace|]. intros v. apply andthen_trace; [constructor|]. intros d'. apply IH.
  Qed.
  Lemma program_plain ss bs : program es ss bs -> Forall (fun b => plain (snd b)) bs.
  Proof.
    assert (C : forall (xs : list string) vs, Forall plain vs -> Forall (fun b => plain (snd b)) (combine xs vs)).
    { induction xs as [|x xs IH]; intros vs H; [constructor|]. destruct H; [constructor|]. cbn. constructor; [assumption|auto]. }
    assert (E : forall v, plain v -> Forall plain (elements v)). { intros v H. destruct H; cbn; try assumption; repeat constructor; assumption. }
    induction 1 as [|ts e v b ss bs Hv Hb' _ IH]; [constructor|]. apply Forall_app. split; [|exact IH]. apply denotes_plain in Hv. clear - Hb' Hv C E. induction Hb' as [|t ts v b bs Ht _ IH]; [constructor|]. apply Forall_app. split; [|auto]. destruct Ht; auto.
  Qed.
  Lemma assigns_err d ts v x : assigns d ts v = Raise x -> x = ValueError \/ x = TypeError.
  Proof.
    revert d. induction ts as [|t ts IH]; intros d; cbn [assigns]; [discriminate|]. destruct (assign d t v) as [d1|e] eqn:E; cbn; [apply IH|]. intros H. injection H as <-.
    destruct t as [y|us|us|]; cbn in E; try discriminate; [| |injection E as <-; auto]; (destruct (names us); [destruct (Nat.eqb _ _)|]; try discriminate; injection E as <-; auto).
  Qed.
  Lemma statements_err d ss x : fst (statements es builtin d ss) = Raise x -> x = ValueError \/ x = TypeError \/ x = AttributeErrorExn.
  Proof.
    revert d. induction ss as [|s ss IH]; intros d; cbn [statements]; [discriminate|]. destruct s as [ts e|]; [|cbn; intros E; injection E as <-; auto]. rewrite !fst_andthen. destruct (fst (ev e)) as [v|y] eqn:E; cbn [bind].
    - rewrite fst_andthen. cbn [ret fst]. destruct (assigns d ts v) as [d1|y] eqn:Ea; cbn [bind]; [apply IH|]. intros H. injection H as <-. apply assigns_err in Ea. tauto.
    - intros H. injection H as <-. eapply eval_err, E.
  Qed.
  Lemma statements_app d a b : fst (statements es builtin d (a ++ b)) = bind (fst (statements es builtin d a)) (fun d => fst (statements es builtin d b)).
  Proof.
    revert d. induction a as [|s a IH]; intros d; [reflexivity|]. cbn [statements app]. destruct s; [|reflexivity]. rewrite !fst_andthen. destruct (fst (ev e)); cbn [bind]; [|reflexivity]. rewrite !fst_andthen. cbn [ret fst]. destruct (assigns d ts a0); cbn [bind]; [apply IH|reflexivity].
  Qed.
End Eval.
(* the calls made are those of slice, so other builtins do not matter *)
Section Independent.
  Variable es : bool.
  Variables B B' : string -> list value -> list (option string * value) -> res value.
  Hypothesis H : forall a k, B "slice"%string a k = B' "slice"%string a k.
  Lemma andthen_eq {A C} (x y : run A) (f g : A -> run C) : x = y -> (forall a, f a = g a) -> andthen x f = andthen y g.
  Proof. intros -> E. destruct y as [[a|e] t]; cbn; [now rewrite E|reflexivity]. Qed.
  Lemma eval_indep e : eval_value es B e = eval_value es B' e.
  Proof.
    induction e as [c|l IH|l IH|l IH|l IH|op e IH|op l r IHl IHr|n|e n IH|f args kws IHf IHa IHk|e IH|l IH] using expr_nested; try reflexivity.
    destruct f; try reflexivity. rewrite !eval_call. destruct (whitelisted x) eqn:W; [|reflexivity]. apply whitelist_slice in W as ->. cbn [negb]. apply andthen_eq.
    - clear IHk. induction IHa as [|e l He _ IH]; [reflexivity|]. cbn [evs]. apply andthen_eq; [exact He|]. intros v. now apply andthen_eq.
    - intros vs. apply andthen_eq.
      + induction IHk as [|[x e] l He _ IH]; [reflexivity|]. cbn [named]. apply andthen_eq; [exact He|]. intros v. now apply andthen_eq.
      + intros ks. now rewrite H.
  Qed.
  Lemma statements_indep d ss : statements es B d ss = statements es B' d ss.
  Proof. revert d. induction ss as [|s ss IH]; intros d; [reflexivity|]. cbn [statements]. destruct s; [|reflexivity]. rewrite eval_indep. apply andthen_eq; [reflexivity|]. intros v. apply andthen_eq; [reflexivity|apply IH]. Qed.
End Independent.
