From Coq Require Import String ZArith QArith.
From Verif Require Import Prelude CmdModel CmdSpec.
Close Scope Q_scope.
Close Scope Z_scope.
Open Scope nat_scope.

(* induction over expressions *)
Section Ind.
  Variable P : expr -> Prop.
  Hypothesis Hconst : forall c, P (EConst c).
  Hypothesis Htuple : forall es, Forall P es -> P (ETuple es).
  Hypothesis Hlist : forall es, Forall P es -> P (EList es).
  Hypothesis Hset : forall es, Forall P es -> P (ESet es).
  Hypothesis Hdict : forall items, Forall (fun i => (forall k, fst i = Some k -> P k) /\ P (snd i)) items -> P (EDict items).
  Hypothesis Hun : forall op e, P e -> P (EUnary op e).
  Hypothesis Hbin : forall op l r, P l -> P r -> P (EBinary op l r).
  Hypothesis Hname : forall x, P (EName x).
  Hypothesis Hattr : forall e x, P e -> P (EAttribute e x).
  Hypothesis Hcall : forall f args kws, P f -> Forall P args -> Forall (fun k => P (snd k)) kws -> P (ECall f args kws).
  Hypothesis Hstar : forall e, P e -> P (EStarred e).
  Hypothesis Hother : forall es, Forall P es -> P (EOther es).
  Fixpoint expr_nested (e : expr) : P e.
  Proof.
    assert (A : forall es, (fix ok (es : list expr) := match es with [] => True | e :: es => P e /\ ok es end) es -> Forall P es).
    { clear. induction es as [|e es IH]; [constructor|]. intros [H1 H2]. constructor; [exact H1|exact (IH H2)]. }
    destruct e.
    - apply Hconst.
    - apply Htuple. induction es as [|e es IH]; constructor; [apply expr_nested|exact IH].
    - apply Hlist. induction es as [|e es IH]; constructor; [apply expr_nested|exact IH].
    - apply Hset. induction es as [|e es IH]; constructor; [apply expr_nested|exact IH].
    - apply Hdict. induction items as [|i items IH]; constructor; [|exact IH]. destruct i as [[k|] e]; split; cbn [fst snd]; try (apply expr_nested).
      + intros k' E. injection E as <-. apply expr_nested.
      + discriminate.
    - apply Hun, expr_nested.
    - apply Hbin; apply expr_nested.
    - apply Hname.
    - apply Hattr, expr_nested.
    - apply Hcall; [apply expr_nested| |].
      + induction args as [|e' es IH]; constructor; [apply expr_nested|exact IH].
      + induction kws as [|[x e'] es IH]; constructor; [apply expr_nested|exact IH].
    - apply Hstar, expr_nested.
    - apply Hother. induction es as [|e es IH]; constructor; [apply expr_nested|exact IH].
  Qed.
End Ind.
Section VInd.
  Variable P : value -> Prop.
  Hypothesis Hconst : forall c, P (VConst c).
  Hypothesis Htuple : forall es, Forall P es -> P (VTuple es).
  Hypothesis Hlist : forall es, Forall P es -> P (VList es).
  Hypothesis Hset : forall es, Forall P es -> P (VSet es).
  Hypothesis Hdict : forall items, Forall (fun i => P (fst i) /\ P (snd i)) items -> P (VDict items).
  Hypothesis Hslice : forall a b c, P a -> P b -> P c -> P (VSlice a b c).
  Hypothesis Hobj : forall n, P (VObject n).
  Fixpoint value_nested (v : value) : P v.
  Proof.
    destruct v.
    - apply Hconst.
    - apply Htuple. induction vs as [|e es IH]; constructor; [apply value_nested|exact IH].
    - apply Hlist. induction vs as [|e es IH]; constructor; [apply value_nested|exact IH].
    - apply Hset. induction vs as [|e es IH]; constructor; [apply value_nested|exact IH].
    - apply Hdict. induction items as [|[a b] items IH]; constructor; [split; apply value_nested|exact IH].
    - apply Hslice; apply value_nested.
    - apply Hobj.
  Qed.
End VInd.

Lemma bind_Ok {A B} (x : res A) (f : A -> res B) b : bind x f = Ok b <-> exists a, x = Ok a /\ f a = Ok b.
Proof. destruct x; cbn; [split; [intros H; now exists a|intros (a' & E & H); now injection E as ->]|split; [discriminate|intros (a' & E & _); discriminate]]. Qed.

(* the loops by themselves *)
Section Loops.
  Variable es : bool.
  Fixpoint lits (l : list expr) : res (list value) :=
    match l with [] => Ok [] | e :: l => do! v <- literal_eval es e; do! vs <- lits l; Ok (v :: vs) end.
  Fixpoint hlits (l : list expr) : res (list value) :=
    match l with
    | [] => Ok []
    | e :: l => do! v <- literal_eval es e; if hashable v then do! vs <- hlits l; Ok (v :: vs) else Raise TypeError
    end.
  Fixpoint pairs (items : list (option expr * expr)) : res (list (value * value)) :=
    match items with
    | [] => Ok []
    | (None, _) :: _ => Raise ValueError
    | (Some k, e) :: items =>
        do! a <- literal_eval es k; do! v <- literal_eval es e;
        if hashable a then do! r <- pairs items; Ok ((a, v) :: r) else Raise TypeError
    end.
  Lemma lit_tuple l : literal_eval es (ETuple l) = do! vs <- lits l; Ok (VTuple vs). Proof. reflexivity. Qed.
  Lemma lit_list l : literal_eval es (EList l) = do! vs <- lits l; Ok (VList vs). Proof. reflexivity. Qed.
  Lemma lit_set l : literal_eval es (ESet l) = do! vs <- hlits l; Ok (VSet vs). Proof. reflexivity. Qed.
  Lemma lit_dict l : literal_eval es (EDict l) = do! vs <- pairs l; Ok (VDict vs). Proof. reflexivity. Qed.

  (* values of literals *)
  Inductive data : value -> Prop :=
  | v_const c : data (VConst c)
  | v_tuple vs : Forall data vs -> data (VTuple vs)
  | v_list vs : Forall data vs -> data (VList vs)
  | v_set vs : Forall data vs -> data (VSet vs)
  | v_dict kvs : Forall (fun kv => data (fst kv) /\ data (snd kv)) kvs -> data (VDict kvs).
  Lemma lits_Forall2 l (R : expr -> value -> Prop) : Forall (fun e => forall v, literal_eval es e = Ok v <-> R e v) l -> forall vs, lits l = Ok vs <-> Forall2 R l vs.
  Proof.
    induction 1 as [|e l He _ IH]; intros vs; cbn [lits].
    - split; [intros E; injection E as <-; constructor|intros H; now inversion H].
    - rewrite bind_Ok. split.
      + intros (v & Ev & E). apply bind_Ok in E as (ws & Ew & E). injection E as <-. constructor; [now apply He|now apply IH].
      + intros H. inversion H as [|? v ? ws H1 H2]; subst. exists v. split; [now apply He|]. apply bind_Ok. exists ws. split; [now apply IH|reflexivity].
  Qed.
  Lemma hlits_lits l vs : hlits l = Ok vs <-> lits l = Ok vs /\ Forall (fun v => hashable v = true) vs.
  Proof.
    revert vs. induction l as [|e l IH]; intros vs; cbn [hlits lits].
    - split; [intros E; split; [exact E|injection E as <-; constructor]|intros [E _]; exact E].
    - rewrite !bind_Ok. split.
      + intros (v & Ev & E). destruct (hashable v) eqn:Hv; [|discriminate]. apply bind_Ok in E as (ws & Ew & E). injection E as <-. apply IH in Ew as [Ew Hw].
        split; [exists v; split; [exact Ev|]; apply bind_Ok; now exists ws|now constructor].
      + intros [(v & Ev & E) H]. apply bind_Ok in E as (ws & Ew & E). injection E as <-. inversion H as [|? ? Hv Hw]; subst. exists v. split; [exact Ev|]. rewrite Hv. apply bind_Ok. exists ws. split; [|reflexivity]. apply IH. now split.
  Qed.
  Lemma pairs_Forall2 l (R : expr -> value -> Prop) : Forall (fun i => (forall k, fst i = Some k -> forall v, literal_eval es k = Ok v <-> R k v) /\ forall v, literal_eval es (snd i) = Ok v <-> R (snd i) v) l ->
    forall kvs, pairs l = Ok kvs <-> Forall2 (fun i kv => exists k, fst i = Some k /\ R k (fst kv) /\ R (snd i) (snd kv)) l kvs /\ Forall (fun kv => hashable (fst kv) = true) kvs.
  Proof.
    induction 1 as [|[[k|] e] l [Hk He] _ IH]; intros kvs; cbn [pairs].
    - split; [intros E; injection E as <-; split; constructor|intros [H _]; now inversion H].
    - cbn [fst snd] in Hk, He. specialize (Hk k eq_refl). rewrite bind_Ok. split.
      + intros (a & Ea & E). apply bind_Ok in E as (v & Ev & E). destruct (hashable a) eqn:Ha; [|discriminate]. apply bind_Ok in E as (r & Er & E). injection E as <-. apply IH in Er as [E1 E2].
        split; constructor; trivial. exists k. cbn. split; [reflexivity|]. split; [now apply Hk|now apply He].
      + intros [H1 H2]. inversion H1 as [|? [a v] ? r (k' & Ek & Ra & Rv) Hr]; subst. cbn [fst snd] in *. injection Ek as <-. inversion H2 as [|? ? Ha Hs]; subst. cbn in Ha. exists a. split; [now apply Hk|]. apply bind_Ok. exists v. split; [now apply He|]. rewrite Ha. apply bind_Ok. exists r. split; [|reflexivity]. apply IH. now split.
    - split; [discriminate|]. intros [H _]. inversion H as [|? ? ? ? (k & E & _)]; subst. discriminate.
  Qed.
  Lemma data_hash v : data v -> (hashable v = true <-> frozen v).
  Proof.
    induction v as [c|vs IH|vs IH|vs IH|items IH|a b c _ _ _|n] using value_nested; intros H.
    - split; [constructor|reflexivity].
    - inversion H as [|? Hs| | |]; subst. cbn [hashable]. split.
      + intros E. constructor. rewrite Forall_forall in *. rewrite forallb_forall in E. intros x Hx. apply (IH x Hx (Hs x Hx)). now apply E.
      + intros E. inversion E as [|? Hf]; subst. rewrite forallb_forall. rewrite Forall_forall in *. intros x Hx. apply (IH x Hx (Hs x Hx)). now apply Hf.
    - split; [discriminate|intros E; inversion E].
    - split; [discriminate|intros E; inversion E].
    - split; [discriminate|intros E; inversion E].
    - split; [discriminate|intros E; inversion E].
    - inversion H.
  Qed.
  Lemma Forall2_data l vs (R : expr -> value -> Prop) : Forall (fun e => forall v, R e v -> data v) l -> Forall2 R l vs -> Forall data vs.
  Proof. intros H H2. induction H2; [constructor|]. inversion H; subst. constructor; eauto. Qed.
  Lemma literal_data e : forall v, literal es e v -> data v.
  Proof.
    induction e using expr_nested; intros v Hv; inversion Hv; subst; try (constructor; fail); constructor.
    - eapply Forall2_data; eauto.
    - eapply Forall2_data; eauto.
    - eapply Forall2_data; eauto.
    - match goal with H2 : Forall2 _ items ?k |- _ => revert H; clear - H2; induction H2 as [|i kv is ks (k0 & Ek & Rk & Rv)]; intros H; constructor end.
      + inversion H as [|? ? [Hk He] _]; subst. split; [eapply Hk; eauto|eapply He; eauto].
      + inversion H; subst. auto.
    - constructor.
  Qed.
  Lemma number_ok e n : convert_signed_num e = Ok n <-> number e n.
  Proof.
    split.
    - destruct e as [c| | | | |op e| | | | | |]; cbn; try discriminate.
      + destruct c; try discriminate. intros E. injection E as <-. constructor.
      + destruct op; cbn; try discriminate; (destruct e as [c| | | | | | | | | | |]; try discriminate; destruct c as [m| | | | |]; try discriminate); cbn; intros E; injection E as <-; [constructor|]. destruct m; constructor.
    - intros H. destruct H; reflexivity.
  Qed.
  Lemma sum_ok op l r v : convert_sum op l r = Ok v <-> literal es (EBinary op l r) v.
  Proof.
    split.
    - unfold convert_sum. destruct op; try discriminate; intros E; apply bind_Ok in E as (a & Ea & E); apply bind_Ok in E as (b & Eb & E); apply number_ok in Ea;
        (destruct r as [c| | | | | | | | | | |]; try discriminate Eb; destruct c as [m| | | | |]; try discriminate Eb); cbn in Eb; injection Eb as ->;
        destruct b as [z|q|x y]; (destruct a as [z'|q'|x' y']; cbn in E; try discriminate E); injection E as <-; now constructor.
    - intros H. inversion H as [| ? ? Hn| | | | | | | | |]; subst; [inversion Hn|..]; unfold convert_sum; match goal with H : number _ _ |- _ => apply number_ok in H; rewrite H end; reflexivity.
  Qed.
  Lemma literal_ok e : forall v, literal_eval es e = Ok v <-> literal es e v.
  Proof.
    induction e as [c|l IH|l IH|l IH|l IH|op e IH|op l r IHl IHr|x|e x IH|f args kws IHf IHa IHk|e IH|l IH] using expr_nested; intros v.
    - cbn. split; [intros E; injection E as <-; constructor|]. intros H. inversion H as [|? ? Hn| | | | | | | | |]; subst; [reflexivity|]. inversion Hn; subst. reflexivity.
    - rewrite lit_tuple, bind_Ok. split.
      + intros (vs & E & Ev). injection Ev as <-. constructor. now apply (lits_Forall2 l _ IH).
      + intros H. inversion H as [|? ? Hn| | | | |? vs Hs| | | |]; subst; [inversion Hn|]. exists vs. split; [|reflexivity]. now apply (lits_Forall2 l _ IH).
    - rewrite lit_list, bind_Ok. split.
      + intros (vs & E & Ev). injection Ev as <-. constructor. now apply (lits_Forall2 l _ IH).
      + intros H. inversion H as [|? ? Hn| | | | | |? vs Hs| | |]; subst; [inversion Hn|]. exists vs. split; [|reflexivity]. now apply (lits_Forall2 l _ IH).
    - rewrite lit_set, bind_Ok. split.
      + intros (vs & E & Ev). injection Ev as <-. apply hlits_lits in E as [E Hh]. apply (lits_Forall2 l _ IH) in E. constructor; [exact E|].
        assert (D : Forall data vs). { eapply Forall2_data; [|exact E]. apply Forall_forall. intros e _. apply literal_data. }
        rewrite Forall_forall in *. intros x Hx. apply data_hash; auto.
      + intros H. inversion H as [|? ? Hn| | | | | | |? vs Hs Hf| |]; subst; [inversion Hn|]. exists vs. split; [|reflexivity]. apply hlits_lits. split; [now apply (lits_Forall2 l _ IH)|].
        assert (D : Forall data vs). { eapply Forall2_data; [|exact Hs]. apply Forall_forall. intros e _. apply literal_data. }
        rewrite Forall_forall in *. intros x Hx. apply data_hash; auto.
    - rewrite lit_dict, bind_Ok. split.
      + intros (kvs & E & Ev). injection Ev as <-. apply (pairs_Forall2 l _ IH) in E as [E Hh]. constructor; [exact E|].
        rewrite Forall_forall in *. intros kv Hkv. apply data_hash; [|now apply Hh]. clear - E Hkv. induction E as [|i kv' is ks (k & _ & Hk & _) _ IH]; [easy|]. destruct Hkv as [->|Hkv]; [now apply literal_data in Hk|auto].
      + intros H. inversion H as [|? ? Hn| | | | | | | | |? kvs Hs Hf]; subst; [inversion Hn|]. exists kvs. split; [|reflexivity]. apply (pairs_Forall2 l _ IH). split; [exact Hs|].
        rewrite Forall_forall in *. intros kv Hkv. apply data_hash; [|now apply Hf]. clear - Hs Hkv. induction Hs as [|i kv' is ks (k & _ & Hk & _) _ IH]; [easy|]. destruct Hkv as [->|Hkv]; [now apply literal_data in Hk|auto].
    - change (literal_eval es (EUnary op e)) with (do! n <- convert_signed_num (EUnary op e); Ok (VConst (KNum n))). rewrite bind_Ok. split.
      + intros (n & E & Ev). injection Ev as <-. apply l_number. now apply number_ok.
      + intros H. inversion H as [|? n Hn| | | | | | | | |]; subst. exists n. split; [now apply number_ok|reflexivity].
    - apply sum_ok.
    - cbn. split; [discriminate|]. intros H. inversion H as [|? ? Hn| | | | | | | | |]; subst. inversion Hn.
    - cbn. split; [discriminate|]. intros H. inversion H as [|? ? Hn| | | | | | | | |]; subst. inversion Hn.
    - split.
      + destruct f; cbn; try discriminate. destruct args; cbn; try discriminate. destruct kws; cbn; try discriminate. destruct es eqn:Ees; cbn; try discriminate. destruct (String.eqb x "set") eqn:Ex; try discriminate. apply String.eqb_eq in Ex as ->. intros E. injection E as <-. now constructor.
      + intros H. inversion H as [|? ? Hn| | | | | | | |Ee|]; subst; [inversion Hn|]. reflexivity.
    - cbn. split; [discriminate|]. intros H. inversion H as [|? ? Hn| | | | | | | | |]; subst. inversion Hn.
    - cbn. split; [discriminate|]. intros H. inversion H as [|? ? Hn| | | | | | | | |]; subst. inversion Hn.
  Qed.
  (* the errors of literal_eval *)
  Definition lit_error (e : exn) : Prop := e = ValueError \/ e = TypeError.
  Lemma bind_err {A B} (x : res A) (f : A -> res B) (P : exn -> Prop) : (forall e, x = Raise e -> P e) -> (forall a e, x = Ok a -> f a = Raise e -> P e) -> forall e, bind x f = Raise e -> P e.
  Proof. intros H1 H2 e E. destruct x; cbn in E; [now apply (H2 a)|]. injection E as <-. now apply H1. Qed.
  Lemma num_err e x : convert_num e = Raise x -> x = ValueError.
  Proof. destruct e as [c| | | | | | | | | | |]; cbn; try (intros E; now injection E). destruct c; cbn; try discriminate; intros E; now injection E. Qed.
  Lemma signed_err e x : convert_signed_num e = Raise x -> x = ValueError.
  Proof.
    destruct e as [c| | | | |op e| | | | | |]; cbn; try (intros E; now injection E).
    - destruct c; cbn; try discriminate; intros E; now injection E.
    - destruct op; cbn; try (intros E; now injection E); intros E; [now apply num_err in E|]. destruct (convert_num e) eqn:En; cbn in E; [discriminate|]. injection E as <-. now apply num_err in En.
  Qed.
  Lemma literal_err e : forall x, literal_eval es e = Raise x -> lit_error x.
  Proof.
    assert (L : forall l, Forall (fun e => forall x, literal_eval es e = Raise x -> lit_error x) l -> forall x, lits l = Raise x -> lit_error x).
    { induction 1 as [|e0 l He _ IH]; cbn [lits]; [discriminate|]. apply bind_err; [exact He|]. intros a x _. revert x. apply bind_err; [exact IH|discriminate]. }
    induction e as [c|l IH|l IH|l IH|l IH|op e IH|op l r IHl IHr|n|e n IH|f args kws IHf IHa IHk|e IH|l IH] using expr_nested.
    - discriminate.
    - rewrite lit_tuple. apply bind_err; [now apply L|discriminate].
    - rewrite lit_list. apply bind_err; [now apply L|discriminate].
    - rewrite lit_set. apply bind_err; [|discriminate]. clear L. induction IH as [|e0 l He _ IH]; cbn [hlits]; [discriminate|]. apply bind_err; [exact He|]. intros a x _. destruct (hashable a); [|intros E; injection E as <-; now right]. revert x. apply bind_err; [exact IH|discriminate].
    - rewrite lit_dict. apply bind_err; [|discriminate]. clear L. induction IH as [|[[k|] e0] l [Hk He] _ IH]; cbn [pairs]; [discriminate| |intros x E; injection E as <-; now left]. cbn [fst snd] in *. apply bind_err; [now apply (Hk k)|]. intros a x _. revert x. apply bind_err; [exact He|]. intros b x _. destruct (hashable a); [|intros E; injection E as <-; now right]. revert x. apply bind_err; [exact IH|discriminate].
    - intros x. change (literal_eval es (EUnary op e)) with (do! n <- convert_signed_num (EUnary op e); Ok (VConst (KNum n))). revert x. apply bind_err; [|discriminate]. intros x E. apply signed_err in E as ->. now left.
    - intros x. cbn. unfold convert_sum. destruct op; try (intros E; injection E as <-; now left); revert x; (apply bind_err; [intros x E; apply signed_err in E as ->; now left|]); intros a x _; revert x; (apply bind_err; [intros x E; apply num_err in E as ->; now left|]); intros b x _; destruct (to_q a), b; try discriminate; intros E; injection E as <-; now left.
    - intros x E. injection E as <-. now left.
    - intros x E. injection E as <-. now left.
    - intros x. destruct f; cbn; try (intros E; injection E as <-; now left). destruct args; cbn; try (intros E; injection E as <-; now left). destruct kws; cbn; try (intros E; injection E as <-; now left). destruct (es && _); try discriminate; (intros E; injection E as <-; now left).
    - intros x E. injection E as <-. now left.
    - intros x E. injection E as <-. now left.
  Qed.
End Loops.
