(* C75: parse_python_assigns *)
From Coq Require Import String ZArith QArith Lia.
From Verif Require Import Prelude CmdModel CmdSpec CmdProofs CmdProofs2.
Close Scope Q_scope.
Close Scope Z_scope.
Open Scope nat_scope.

(* whatever the program, failing or not, slice is the only thing called ... *)
Theorem C75_only_slice_is_called : forall empty_set builtin ss c, In c (snd (parse_python_assigns empty_set builtin ss)) -> fst (fst c) = "slice"%string.
Proof. intros es B ss c H. exact (proj1 (Forall_forall _ _) (statements_trace es B [] ss) c H). Qed.
Print Assumptions C75_only_slice_is_called.
(* ... so what the other builtins do cannot matter *)
Theorem C75_other_builtins : forall empty_set builtin builtin', (forall a k, builtin "slice"%string a k = builtin' "slice"%string a k) ->
  forall ss, parse_python_assigns empty_set builtin ss = parse_python_assigns empty_set builtin' ss.
Proof. intros es B B' H ss. exact (statements_indep es B B' H [] ss). Qed.
Print Assumptions C75_other_builtins.
(* a program is accepted exactly if every statement binds names to literals and slices; the dictionary has the last binding of each
   name, once, and no other key *)
Theorem C75_accepted : forall empty_set builtin, slice_is_slice builtin -> forall ss,
  (forall d, fst (parse_python_assigns empty_set builtin ss) = Ok d -> exists bs, program empty_set ss bs /\ (forall x, lookup d x = last_binding bs x) /\ NoDup (map fst d)) /\
  (forall bs, program empty_set ss bs -> exists d, fst (parse_python_assigns empty_set builtin ss) = Ok d /\ (forall x, lookup d x = last_binding bs x) /\ NoDup (map fst d)).
Proof.
  intros es B H ss. unfold parse_python_assigns. split.
  - intros d E. apply (statements_ok es B H) in E as (bs & Hp & ->). exists bs. split; [exact Hp|]. split; [|apply sets_nodup; constructor]. intros x. rewrite lookup_sets. now destruct (last_binding bs x).
  - intros bs Hp. exists (sets [] bs). split; [apply (statements_ok es B H); now exists bs|]. split; [|apply sets_nodup; constructor]. intros x. rewrite lookup_sets. now destruct (last_binding bs x).
Qed.
Print Assumptions C75_accepted.
(* every value bound is plain data *)
Theorem C75_values : forall empty_set builtin, slice_is_slice builtin -> forall ss d, fst (parse_python_assigns empty_set builtin ss) = Ok d -> forall x v, lookup d x = Some v -> plain v.
Proof.
  intros es B H ss d E x v L. apply (statements_ok es B H) in E as (bs & Hp & ->). rewrite lookup_sets in L. apply program_plain in Hp. clear - Hp L. revert v L. induction Hp as [|[y w] bs Hw _ IH]; cbn; intros v L; [discriminate|].
  destruct (last_binding bs x); [now apply IH|]. destruct (String.eqb y x); [injection L as <-; exact Hw|discriminate].
Qed.
Print Assumptions C75_values.
(* everything else is an error of one of three kinds *)
Theorem C75_errors : forall empty_set builtin, slice_is_slice builtin -> forall ss x, fst (parse_python_assigns empty_set builtin ss) = Raise x -> x = ValueError \/ x = TypeError \/ x = AttributeErrorExn.
Proof. intros es B H ss x. exact (statements_err es B H [] ss x). Qed.
Print Assumptions C75_errors.
(* a function that is not slice, a name, an attribute, a subscript or other expression: never accepted, wherever the statement is; no call is
   made for it *)
Theorem C75_rejected : forall empty_set builtin, slice_is_slice builtin -> forall before ts e after,
  (exists f args kws, e = ECall (EName f) args kws /\ f <> "slice"%string) \/ (exists x, e = EName x) \/ (exists o x, e = EAttribute o x) \/ (exists es, e = EOther es) ->
  eval_value empty_set builtin e = (Raise ValueError, []) /\ exists x, fst (parse_python_assigns empty_set builtin (before ++ SAssign ts e :: after)) = Raise x.
Proof.
  intros es B H before ts e after C. assert (E : eval_value es B e = (Raise ValueError, [])).
  { destruct C as [(f & args & kws & -> & Nf)|[(x & ->)|[(o & x & ->)|(es' & ->)]]]; try reflexivity. rewrite eval_call. destruct (whitelisted f) eqn:W; [apply whitelist_slice in W; contradiction|reflexivity]. }
  split; [exact E|]. unfold parse_python_assigns. rewrite statements_app. destruct (fst (statements es B [] before)) as [d|x]; cbn [bind]; [|now exists x]. cbn [statements]. rewrite E. now exists ValueError.
Qed.
Print Assumptions C75_rejected.
(* statements that are not assignments are refused, with a ValueError when they are reached *)
Theorem C75_not_assignment : forall empty_set builtin before after d, fst (parse_python_assigns empty_set builtin before) = Ok d -> fst (parse_python_assigns empty_set builtin (before ++ SOther :: after)) = Raise ValueError.
Proof. intros es B b a d E. unfold parse_python_assigns in *. rewrite statements_app, E. reflexivity. Qed.
Print Assumptions C75_not_assignment.
(* names bound earlier are not in scope, so a program is the union of its parts: the second part means the same after the first *)
Theorem C75_parts : forall empty_set builtin, slice_is_slice builtin -> forall a b da db, fst (parse_python_assigns empty_set builtin a) = Ok da -> fst (parse_python_assigns empty_set builtin b) = Ok db ->
  exists d, fst (parse_python_assigns empty_set builtin (a ++ b)) = Ok d /\ forall x, lookup d x = match lookup db x with Some v => Some v | None => lookup da x end.
Proof.
  intros es B H a b da db Ea Eb. unfold parse_python_assigns in *. rewrite statements_app, Ea. cbn [bind]. apply (statements_ok es B H) in Eb as (bs & Hp & ->). exists (sets da bs). split; [apply (statements_ok es B H); now exists bs|].
  intros x. rewrite !lookup_sets. now destruct (last_binding bs x).
Qed.
Print Assumptions C75_parts.
(* the same for a part that fails: what was assigned before does not rescue it *)
Theorem C75_failing_part : forall empty_set builtin, slice_is_slice builtin -> forall a b x, fst (parse_python_assigns empty_set builtin b) = Raise x -> exists y, fst (parse_python_assigns empty_set builtin (a ++ b)) = Raise y.
Proof.
  intros es B H a b x E. destruct (fst (parse_python_assigns es B (a ++ b))) as [d|y] eqn:Eab; [|now exists y]. exfalso. unfold parse_python_assigns in *. rewrite statements_app in Eab. apply bind_Ok in Eab as (d1 & _ & E2). apply (statements_ok es B H) in E2 as (bs & Hp & _).
  assert (E3 : fst (statements es B [] b) = Ok (sets [] bs)) by (apply (statements_ok es B H); now exists bs). rewrite E3 in E. discriminate.
Qed.
Print Assumptions C75_failing_part.
(* refused, but not with the ValueError the messages speak of: calling a method is an AttributeError, and slice with a keyword a TypeError *)
Theorem C75_always_ValueError_refuted : forall empty_set builtin, slice_is_slice builtin -> forall o m args kws k,
  fst (parse_python_assigns empty_set builtin [SAssign [TName "a"%string] (ECall (EAttribute o m) args kws)]) = Raise AttributeErrorExn /\
  fst (parse_python_assigns empty_set builtin [SAssign [TName "a"%string] (ECall (EName "slice"%string) [EConst KNone] [(k, EConst KNone)])]) = Raise TypeError.
Proof. intros es B H o m args kws k. split; [reflexivity|]. cbn. now rewrite H. Qed.
Print Assumptions C75_always_ValueError_refuted.
(* unpacking differs from Python in one way: a value that is no tuple or list counts as a single element.  Python refuses (a,) = 2
   and unpacks a, b = "xy" *)
Theorem C75_unpack_like_python_refuted : forall empty_set builtin n, fst (parse_python_assigns empty_set builtin [SAssign [TTuple [TName "a"%string]] (EConst (KNum n))]) = Ok [("a"%string, VConst (KNum n))] /\
  fst (parse_python_assigns empty_set builtin [SAssign [TTuple [TName "a"%string; TName "b"%string]] (EConst (KStr "xy"))]) = Raise ValueError.
Proof. intros. split; reflexivity. Qed.
Print Assumptions C75_unpack_like_python_refuted.

(* a, b = [1, (2, -3.5)]; c = d = slice(None, slice(2)); a = {"x": 1 + 2j} *)
Example C75_case : slice_is_slice (fun f => if String.eqb f "slice" then py_slice else fun _ _ => Ok (VObject 0)) /\
  let prog := [SAssign [TTuple [TName "a"; TName "b"]] (EList [EConst (KNum (Int 1)); ETuple [EConst (KNum (Int 2)); EUnary USub (EConst (KNum (Float (7 # 2))))]]);
               SAssign [TName "c"; TName "d"] (ECall (EName "slice") [EConst KNone; ECall (EName "slice") [EConst (KNum (Int 2))] []] []);
               SAssign [TName "a"] (EDict [(Some (EConst (KStr "x")), EBinary BAdd (EConst (KNum (Int 1))) (EConst (KNum (Complex 0 2))))])]%string in
  fst (parse_python_assigns true (fun f => if String.eqb f "slice" then py_slice else fun _ _ => Ok (VObject 0)) prog) =
    Ok [("a", VDict [(VConst (KStr "x"), VConst (KNum (Complex (1 + 0) 2)))]); ("b", VTuple [VConst (KNum (Int 2)); VConst (KNum (Float (- 7 # 2)))]);
        ("c", VSlice (VConst KNone) (VSlice (VConst KNone) (VConst (KNum (Int 2))) (VConst KNone)) (VConst KNone));
        ("d", VSlice (VConst KNone) (VSlice (VConst KNone) (VConst (KNum (Int 2))) (VConst KNone)) (VConst KNone))]%string /\
  exists bs, program true prog bs.
Proof.
  assert (S : slice_is_slice (fun f => if String.eqb f "slice" then py_slice else fun _ _ => Ok (VObject 0))) by (intros a k; reflexivity).
  split; [exact S|]. cbv zeta. split; [reflexivity|].
  match goal with |- exists bs, program true ?p bs => destruct (proj1 (C75_accepted true _ S p) _ eq_refl) as (bs & H & _); now exists bs end.
Qed.
(* assigning to an attribute, a subscript or a starred name is a TypeError, wherever the statement is and whatever follows *)
Theorem C75_other_target : forall empty_set builtin before d e v tr ts after, fst (parse_python_assigns empty_set builtin before) = Ok d -> eval_value empty_set builtin e = (Ok v, tr) ->
  fst (parse_python_assigns empty_set builtin (before ++ SAssign (TOther :: ts) e :: after)) = Raise TypeError.
Proof. intros es B before d e v tr ts after Eb Ee. unfold parse_python_assigns in *. rewrite statements_app, Eb. cbn [bind statements]. rewrite Ee. reflexivity. Qed.
Print Assumptions C75_other_target.
