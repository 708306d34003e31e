From Coq Require Import String Ascii Lia Permutation.
From Verif Require Import Prelude AxesModel AxesSpec AxesProofs AxesProofs2.
Open Scope nat_scope.

Lemma app_nil_r' s : (s ++ "")%string = s. Proof. induction s; cbn; congruence. Qed.
Lemma app_assoc' a b c : (a ++ b ++ c)%string = ((a ++ b) ++ c)%string. Proof. induction a; cbn; congruence. Qed.
Lemma length_app' a b : String.length (a ++ b) = String.length a + String.length b. Proof. induction a; cbn; congruence. Qed.
Lemma concat_cons s l : String.concat "" (s :: l) = (s ++ String.concat "" l)%string.
Proof. destruct l; cbn; [now rewrite app_nil_r'|reflexivity]. Qed.
Definition stops (s : string) : Prop := forall c r, s = String c r -> is_alnum c = false.
Lemma span_spec s : let '(a, b) := span s in s = (a ++ b)%string /\ all_chars is_alnum a = true /\ stops b.
Proof.
  induction s as [|c r IH]; cbn; [repeat split; discriminate|]. destruct (is_alnum c) eqn:E.
  - destruct (span r) as [a b]. destruct IH as (-> & H1 & H2). cbn. rewrite E, H1. repeat split. exact H2.
  - repeat split. intros c' r' E'. injection E' as <- _. exact E.
Qed.
Lemma span_app a b : all_chars is_alnum a = true -> stops b -> span (a ++ b)%string = (a, b).
Proof.
  induction a as [|c a IH]; cbn; intros H Hs.
  - destruct b as [|c r]; [reflexivity|]. cbn. now rewrite (Hs c r eq_refl).
  - apply andb_true_iff in H as [H1 H2]. now rewrite H1, IH.
Qed.
Lemma ident_spec s x r : ident s = Some (x, r) <-> s = (x ++ r)%string /\ identifier x /\ stops r.
Proof.
  unfold ident, identifier. split.
  - destruct s as [|c t]; [discriminate|]. destruct (is_alpha c) eqn:Ec; [|discriminate]. pose proof (span_spec t) as H. destruct (span t) as [a b]. destruct H as (-> & H1 & H2). intros E. injection E as <- <-. repeat split; [|exact H2]. now exists c, a.
  - intros (-> & (c & a & -> & Hc & Ha) & Hs). cbn. rewrite Hc. now rewrite span_app.
Qed.
Lemma ident_len s x r : ident s = Some (x, r) -> String.length r < String.length s.
Proof. intros H. apply ident_spec in H as (-> & (c & a & -> & _) & _). rewrite length_app'. cbn. lia. Qed.
Section Sub.
  Variable vars : env.
  Lemma sub_fuel f : forall f' s, String.length s <= f -> String.length s <= f' -> substitute f vars s = substitute f' vars s.
  Proof.
    induction f as [|f IH]; intros f' s H1 H2.
    - destruct s; [|cbn in H1; lia]. destruct f'; reflexivity.
    - destruct f' as [|f']; [destruct s; [reflexivity|cbn in H2; lia]|]. destruct s as [|c r]; [reflexivity|]. cbn [String.length] in *. cbn [substitute].
      rewrite (IH f' r) by lia. destruct (negb (Ascii.eqb c "$")); [reflexivity|]. destruct r as [|d r']; [reflexivity|]. cbn [String.length] in *. rewrite (IH f' r') by lia. destruct (Ascii.eqb d "$"); [reflexivity|].
      destruct (ident (String d r')) as [[x rest]|] eqn:E.
      + apply ident_len in E. cbn in E. rewrite (IH f' rest) by lia. reflexivity.
      + destruct (Ascii.eqb d "("); [|reflexivity]. destruct (ident r') as [[x [|e rest]]|] eqn:E2; try reflexivity. apply ident_len in E2. cbn in E2. rewrite (IH f' rest) by lia. reflexivity.
  Qed.
  Definition sub (s : string) : res string := substitute (String.length s) vars s.
  Definition value_of (x rest : string) : res string := match vars x with None => Raise ValueError | Some v => do! t <- sub rest; Ok (v ++ t)%string end.
  Lemma sub_step s : sub s = match s with
    | EmptyString => Ok EmptyString
    | String c r =>
        if negb (Ascii.eqb c "$") then do! t <- sub r; Ok (String c t) else
        match r with
        | EmptyString => Raise ValueError
        | String d r' =>
            if Ascii.eqb d "$" then do! t <- sub r'; Ok (String "$" t) else
            match ident r with
            | Some (x, rest) => value_of x rest
            | None => if Ascii.eqb d "(" then match ident r' with Some (x, String e rest) => if Ascii.eqb e ")" then value_of x rest else Raise ValueError | _ => Raise ValueError end else Raise ValueError
            end
        end
    end.
  Proof.
    destruct s as [|c r]; [reflexivity|]. unfold sub at 1. cbn [String.length substitute]. unfold value_of.
    destruct (negb (Ascii.eqb c "$")); [reflexivity|]. destruct r as [|d r']; [reflexivity|]. cbn [String.length]. rewrite (sub_fuel (S (String.length r')) (String.length r') r') by lia. fold (sub r'). destruct (Ascii.eqb d "$"); [reflexivity|].
    destruct (ident (String d r')) as [[x rest]|] eqn:E.
    - apply ident_len in E. cbn in E. unfold sub. rewrite (sub_fuel (S (String.length r')) (String.length rest) rest) by lia. reflexivity.
    - destruct (Ascii.eqb d "("); [|reflexivity]. destruct (ident r') as [[x [|e rest]]|] eqn:E2; try reflexivity. apply ident_len in E2. cbn in E2. unfold sub. rewrite (sub_fuel (S (String.length r')) (String.length rest) rest) by lia. reflexivity.
  Qed.
  Lemma sub_text s r : all_chars (fun c => negb (Ascii.eqb c "$")) s = true -> sub (s ++ r) = do! t <- sub r; Ok (s ++ t)%string.
  Proof.
    induction s as [|c s IH]; intros H; [change ("" ++ r)%string with r; destruct (sub r); reflexivity|]. cbn [all_chars] in H. apply andb_true_iff in H as [H1 H2]. change (String c s ++ r)%string with (String c (s ++ r)%string). rewrite sub_step, H1, (IH H2). now destruct (sub r).
  Qed.
  Lemma alpha_dollar x : identifier x -> exists c r, x = String c r /\ Ascii.eqb c "$" = false /\ Ascii.eqb c "(" = false.
  Proof.
    intros (c & r & -> & H & _). exists c, r. split; [reflexivity|]. split; [destruct (Ascii.eqb_spec c "$") as [->|]; [discriminate H|reflexivity]|destruct (Ascii.eqb_spec c "(") as [->|]; [discriminate H|reflexivity]].
  Qed.
  Lemma sub_name x r : identifier x -> stops r -> sub ("$" ++ x ++ r) = value_of x r.
  Proof.
    intros Hx Hr. cbn [append]. rewrite sub_step. change (negb (Ascii.eqb "$" "$")) with false. cbv iota. destruct (alpha_dollar x Hx) as (c & t & -> & E1 & _). cbn [append]. rewrite E1.
    change (String c (t ++ r)%string) with (String c t ++ r)%string. now rewrite (proj2 (ident_spec _ (String c t) r) (conj eq_refl (conj Hx Hr))).
  Qed.
  Lemma sub_braced x r : identifier x -> sub ("$(" ++ x ++ ")" ++ r) = value_of x r.
  Proof.
    intros Hx. cbn [append]. rewrite sub_step. cbn [Ascii.eqb Bool.eqb negb]. change (ident (String "(" (x ++ String ")" r))) with (@None (string * string)). cbv iota beta.
    change (negb (Ascii.eqb "$" "$")) with false. change (Ascii.eqb "(" "$") with false. change (Ascii.eqb "(" "(") with true. cbv iota.
    rewrite (proj2 (ident_spec _ x (String ")" r))); [reflexivity|]. split; [reflexivity|]. split; [exact Hx|]. intros c t E. injection E as <- _. reflexivity.
  Qed.
  Definition piece_value (p : piece) : res string :=
    match p with Text s => Ok s | Dollar => Ok "$"%string | Name x | Braced x => match vars x with Some v => Ok v | None => Raise ValueError end end.
  Lemma show_cons p ps : show_all (p :: ps) = (show p ++ show_all ps)%string.
  Proof. unfold show_all. cbn [map]. apply concat_cons. Qed.
  Lemma sub_pieces ps : well_formed ps -> sub (show_all ps) = do! vs <- comprehend piece_value ps; Ok (String.concat "" vs).
  Proof.
    induction ps as [|p ps IH]; intros W; [reflexivity|]. rewrite show_cons. cbn [comprehend]. destruct p as [s| |x|x]; cbn [well_formed show piece_value bind] in *.
    - destruct W as [H W]. rewrite (sub_text s _ H), (IH W). destruct (comprehend piece_value ps); cbn [bind]; [|reflexivity]. now rewrite concat_cons.
    - cbn [append]. rewrite sub_step. change (negb (Ascii.eqb "$" "$")) with false. change (Ascii.eqb "$" "$") with true. cbv iota. rewrite (IH W). destruct (comprehend piece_value ps); cbn [bind]; [|reflexivity]. now rewrite concat_cons.
    - destruct W as (Hx & Hs & W). cbn [append]. change (String "$" (x ++ show_all ps)%string) with ("$" ++ x ++ show_all ps)%string. rewrite sub_name by assumption. unfold value_of. rewrite (IH W). destruct (vars x); cbn [bind]; [|reflexivity]. destruct (comprehend piece_value ps); cbn [bind]; [|reflexivity]. now rewrite concat_cons.
    - destruct W as (Hx & W). rewrite <- !app_assoc'. rewrite sub_braced by assumption. unfold value_of. rewrite (IH W). destruct (vars x); cbn [bind]; [|reflexivity]. destruct (comprehend piece_value ps); cbn [bind]; [|reflexivity]. now rewrite concat_cons.
  Qed.
  (* every accepted schema is made of pieces *)
  Lemma sub_shape n : forall s t, String.length s <= n -> sub s = Ok t -> exists ps, well_formed ps /\ s = show_all ps.
  Proof.
    induction n as [|n IH]; intros s t L E.
    - destruct s; [|cbn in L; lia]. now exists [].
    - destruct s as [|c r]; [now exists []|]. cbn [String.length] in L. rewrite sub_step in E. destruct (Ascii.eqb_spec c "$") as [->|Nc]; cbn [negb] in E.
      + destruct r as [|d r']; [discriminate|]. cbn [String.length] in L. destruct (Ascii.eqb_spec d "$") as [->|Nd].
        * apply bind_ok' in E as (u & Eu & _). destruct (IH r' u ltac:(lia) Eu) as (ps & W & ->). exists (Dollar :: ps). rewrite show_cons. now split.
        * destruct (ident (String d r')) as [[x rest]|] eqn:Ei.
          -- pose proof (ident_len _ _ _ Ei) as Li. apply ident_spec in Ei as (-> & Hx & Hs). unfold value_of in E. destruct (vars x); [|discriminate]. apply bind_ok' in E as (u & Eu & _). cbn in Li. destruct (IH rest u ltac:(lia) Eu) as (ps & W & ->). exists (Name x :: ps). rewrite show_cons. now split.
          -- destruct (Ascii.eqb_spec d "(") as [->|]; [|discriminate]. destruct (ident r') as [[x [|e rest]]|] eqn:E2; try discriminate. destruct (Ascii.eqb_spec e ")") as [->|]; [|discriminate].
             pose proof (ident_len _ _ _ E2) as Li. cbn in Li. apply ident_spec in E2 as (-> & Hx & _). unfold value_of in E. destruct (vars x); [|discriminate]. apply bind_ok' in E as (u & Eu & _). destruct (IH rest u ltac:(lia) Eu) as (ps & W & ->).
             exists (Braced x :: ps). rewrite show_cons. split; [now split|]. cbn [show append]. now rewrite <- app_assoc'.
      + apply bind_ok' in E as (u & Eu & _). destruct (IH r u ltac:(lia) Eu) as (ps & W & ->). exists (Text (String c EmptyString) :: ps). rewrite show_cons. split; [|reflexivity]. cbn. split; [|exact W]. now rewrite (proj2 (Ascii.eqb_neq c "$") Nc).
  Qed.
End Sub.
Lemma value_stands corr ri p v : piece_value (vars_of corr ri) p = Ok v <-> stands_for corr ri p v.
Proof.
  split.
  - destruct p as [s| |x|x]; cbn; [intros E; injection E as <-; constructor|intros E; injection E as <-; constructor| |]; unfold vars_of; intros E; apply (sf_var corr ri _ x); auto;
      (destruct (String.eqb_spec x "corr"); [injection E as <-; auto|]; destruct (String.eqb_spec x "CORR"); [injection E as <-; auto|]; destruct (String.eqb_spec x "reim"); [injection E as <-; auto|]; destruct (String.eqb_spec x "REIM"); [injection E as <-; auto 10|discriminate]).
  - intros H. destruct H as [s| |p x v Hp Hv]; [reflexivity|reflexivity|]. assert (vars_of corr ri x = Some v). { destruct Hv as [[-> ->]|[[-> ->]|[[-> ->]|[-> ->]]]]; reflexivity. } destruct Hp as [->| ->]; cbn; now rewrite H.
Qed.
Lemma filename_ok schema corr ri f : filename schema corr ri = Ok f <-> exists ps vs, well_formed ps /\ schema = show_all ps /\ Forall2 (stands_for corr ri) ps vs /\ f = String.concat "" vs.
Proof.
  unfold filename. fold (sub (vars_of corr ri) schema). split.
  - intros E. destruct (sub_shape _ (String.length schema) schema f ltac:(lia) E) as (ps & W & ->). rewrite sub_pieces in E by exact W. apply bind_ok' in E as (vs & Ev & E). injection E as <-. exists ps, vs. repeat split; trivial. apply compr_ok in Ev. clear - Ev. induction Ev; constructor; [now apply value_stands|assumption].
  - intros (ps & vs & W & -> & H & ->). rewrite sub_pieces by exact W. assert (E : comprehend (piece_value (vars_of corr ri)) ps = Ok vs). { apply compr_ok. clear - H. induction H; constructor; [now apply value_stands|assumption]. } now rewrite E.
Qed.
Lemma sub_err vars n : forall s e, String.length s <= n -> sub vars s = Raise e -> e = ValueError.
Proof.
  induction n as [|n IH]; intros s e L E.
  - destruct s; [discriminate|cbn in L; lia].
  - assert (V : forall x rest, String.length rest <= n -> value_of vars x rest = Raise e -> e = ValueError). { intros x rest Lr. unfold value_of. destruct (vars x); [|intros H; now injection H]. destruct (sub vars rest) as [u|e'] eqn:Eu; [discriminate|]. cbn. intros H. injection H as <-. now apply (IH rest). }
    destruct s as [|c r]; [discriminate|]. cbn [String.length] in L. rewrite sub_step in E. destruct (negb (Ascii.eqb c "$")).
    + destruct (sub vars r) as [u|e'] eqn:Eu; [discriminate|]. cbn in E. injection E as <-. apply (IH r); [lia|exact Eu].
    + destruct r as [|d r']; [now injection E|]. cbn [String.length] in L. destruct (Ascii.eqb d "$").
      * destruct (sub vars r') as [u|e'] eqn:Eu; [discriminate|]. cbn in E. injection E as <-. apply (IH r'); [lia|exact Eu].
      * destruct (ident (String d r')) as [[x rest]|] eqn:Ei; [apply ident_len in Ei; cbn in Ei; apply (V x rest); [lia|exact E]|]. destruct (Ascii.eqb d "("); [|now injection E]. destruct (ident r') as [[x [|e0 rest]]|] eqn:E2; try now injection E. apply ident_len in E2. cbn in E2. destruct (Ascii.eqb e0 ")"); [|now injection E]. apply (V x rest); [lia|exact E].
Qed.
Lemma filename_err schema corr ri e : filename schema corr ri = Raise e -> e = ValueError.
Proof. apply (sub_err _ (String.length schema)). lia. Qed.

(* ---- different correlations have different files ---- *)
Lemma smap_len f s : String.length (smap f s) = String.length s. Proof. induction s; cbn; congruence. Qed.
Lemma up_low c : low (up (low c)) = low c.
Proof.
  unfold low at 2 3. set (n := nat_of_ascii c). destruct (Nat.leb 65 n && Nat.leb n 90) eqn:E.
  - apply andb_true_iff in E as [E1 E2]. apply Nat.leb_le in E1, E2. unfold up. rewrite nat_ascii_embedding by lia. replace (Nat.leb 97 (n + 32) && Nat.leb (n + 32) 122) with true by (symmetry; apply andb_true_iff; split; apply Nat.leb_le; lia).
    replace (n + 32 - 32) with n by lia. unfold low. rewrite nat_ascii_embedding by lia. replace (Nat.leb 65 n && Nat.leb n 90) with true by (symmetry; apply andb_true_iff; split; apply Nat.leb_le; lia). reflexivity.
  - unfold up. fold n. destruct (Nat.leb 97 n && Nat.leb n 122) eqn:E2.
    + apply andb_true_iff in E2 as [E3 E4]. apply Nat.leb_le in E3, E4. unfold low. rewrite nat_ascii_embedding by lia. replace (Nat.leb 65 (n - 32) && Nat.leb (n - 32) 90) with true by (symmetry; apply andb_true_iff; split; apply Nat.leb_le; lia). replace (n - 32 + 32) with n by lia. apply ascii_nat_embedding.
    + unfold low. fold n. now rewrite E.
Qed.
Lemma lower_upper_lower s : lower (upper (lower s)) = lower s.
Proof. unfold lower, upper. induction s; cbn; [reflexivity|]. now rewrite IHs, up_low. Qed.
Lemma lower_lower s : lower (lower s) = lower s.
Proof.
  unfold lower. induction s as [|c s IH]; cbn; [reflexivity|]. rewrite IH. f_equal. unfold low. set (n := nat_of_ascii c). destruct (Nat.leb 65 n && Nat.leb n 90) eqn:E.
  - apply andb_true_iff in E as [E1 E2]. apply Nat.leb_le in E1, E2. rewrite nat_ascii_embedding by lia. replace (Nat.leb 65 (n + 32) && Nat.leb (n + 32) 90) with false; [reflexivity|]. symmetry. apply andb_false_iff. right. apply Nat.leb_gt. lia.
  - fold n. now rewrite E.
Qed.
Lemma app_inj a b a' b' : String.length a = String.length a' -> (a ++ b)%string = (a' ++ b')%string -> a = a' /\ b = b'.
Proof. revert a'. induction a as [|c a IH]; intros a' L; destruct a'; cbn in *; try discriminate; [now intros ->|]. intros E. injection E as -> E. apply IH in E as [-> ->]; [now split|lia]. Qed.
Lemma concat_inj vs ws : Forall2 (fun v w => String.length v = String.length w) vs ws -> String.concat "" vs = String.concat "" ws -> vs = ws.
Proof. induction 1 as [|v w vs ws L _ IH]; [reflexivity|]. rewrite !concat_cons. intros E. apply app_inj in E as [-> E]; [|exact L]. now rewrite IH. Qed.
Lemma distinct_files ps c1 r1 c2 r2 vs ws : Forall2 (stands_for (lower c1) r1) ps vs -> Forall2 (stands_for (lower c2) r2) ps ws ->
  String.length c1 = String.length c2 -> In r1 ["re"; "im"]%string -> In r2 ["re"; "im"]%string -> mentions ps "corr" "CORR" -> mentions ps "reim" "REIM" ->
  String.concat "" vs = String.concat "" ws -> lower c1 = lower c2 /\ r1 = r2.
Proof.
  intros H1 H2 L R1 R2 M1 M2 E.
  assert (LR : String.length r1 = String.length r2). { cbn in R1, R2. destruct R1 as [<-|[<-|[]]], R2 as [<-|[<-|[]]]; reflexivity. }
  assert (D : forall p v w, stands_for (lower c1) r1 p v -> stands_for (lower c2) r2 p w -> String.length v = String.length w).
  { intros p v w A B. apply value_stands in A, B. assert (X : forall x y c1 c2 r1 r2, String.length c1 = String.length c2 -> String.length r1 = String.length r2 -> vars_of c1 r1 x = Some y -> forall z, vars_of c2 r2 x = Some z -> String.length y = String.length z).
    { intros x y a b c d La Lb. unfold vars_of, lower, upper. destruct (String.eqb x "corr"); [intros Q; injection Q as <-; intros z Q; injection Q as <-; now rewrite !smap_len|]. destruct (String.eqb x "CORR"); [intros Q; injection Q as <-; intros z Q; injection Q as <-; now rewrite !smap_len|].
      destruct (String.eqb x "reim"); [intros Q; injection Q as <-; intros z Q; injection Q as <-; now rewrite !smap_len|]. destruct (String.eqb x "REIM"); [intros Q; injection Q as <-; intros z Q; injection Q as <-; now rewrite !smap_len|discriminate]. }
    assert (Lc : String.length (lower c1) = String.length (lower c2)) by (unfold lower; now rewrite !smap_len).
    destruct p as [s| |x|x]; cbn in A, B; try (injection A as <-; injection B as <-; reflexivity); (destruct (vars_of (lower c1) r1 x) eqn:E1; [|discriminate]; destruct (vars_of (lower c2) r2 x) eqn:E2; [|discriminate]; injection A as <-; injection B as <-; exact (X x _ _ _ _ _ Lc LR E1 _ E2)). }
  assert (vs = ws). { apply concat_inj; [|exact E]. clear - H1 H2 D. revert ws H2. induction H1 as [|p v ps vs A _ IH]; intros ws H2; inversion H2; subst; constructor; eauto. }
  subst ws. assert (S : forall p, In p ps -> exists v, stands_for (lower c1) r1 p v /\ stands_for (lower c2) r2 p v).
  { clear - H1 H2. induction H1 as [|p v ps vs A _ IH]; inversion H2; subst; intros q Hq; [destruct Hq|destruct Hq as [<-|Hq]; [now exists v|now apply IH]]. }
  assert (U : forall p x, In p ps -> p = Name x \/ p = Braced x -> vars_of (lower c1) r1 x = vars_of (lower c2) r2 x).
  { intros p x Hp Hx. destruct (S p Hp) as (v & A & B). apply value_stands in A, B. destruct Hx as [->| ->]; cbn in A, B; (destruct (vars_of (lower c1) r1 x); [|discriminate]; destruct (vars_of (lower c2) r2 x); [|discriminate]; congruence). }
  assert (UC : upper (lower c1) = upper (lower c2) -> lower c1 = lower c2). { intros Q. apply (f_equal lower) in Q. now rewrite !lower_upper_lower in Q. }
  split.
  - destruct M1 as [M|[M|[M|M]]]; pose proof (U _ _ M ltac:(eauto)) as Q; cbn in Q; injection Q as Q; [| |auto|auto]; now rewrite !lower_lower in Q.
  - destruct M2 as [M|[M|[M|M]]]; pose proof (U _ _ M ltac:(eauto)) as Q; cbn in Q; injection Q as Q; cbn in R1, R2; destruct R1 as [<-|[<-|[]]], R2 as [<-|[<-|[]]]; try reflexivity; discriminate Q.
Qed.

(* ---- the dictionary ---- *)
Lemma set_key_keys {A} (d : list (string * A)) k v : In k (map fst d) /\ map fst (set_key d k v) = map fst d \/ ~ In k (map fst d) /\ map fst (set_key d k v) = map fst d ++ [k].
Proof.
  induction d as [|[z w] d IH]; cbn; [right; split; [easy|reflexivity]|]. destruct (String.eqb_spec z k) as [->|N]; cbn; [left; split; [now left|reflexivity]|]. destruct IH as [[H ->]|[H ->]]; [left; split; [now right|reflexivity]|right; split; [intros [E|E]; [now apply N|auto]|reflexivity]].
Qed.
Definition good_entry (schema : string) (names : list string) (p : string * list string) : Prop := In (fst p) names /\ re_im_filenames (fst p) schema = Ok (snd p).
Lemma set_key_in {A} (d : list (string * A)) k v p : In p (set_key d k v) -> In p d \/ p = (k, v).
Proof. induction d as [|[z w] d IH]; cbn; [intros [<-|[]]; now right|]. destruct (String.eqb_spec z k) as [->|N]; cbn; [intros [<-|H]; [now right|left; now right]|intros [<-|H]; [left; now left|destruct (IH H); auto]]. Qed.
Definition put_all (d : list (string * list string)) (ps : list (string * list string)) := fold_left (fun d p => set_key d (fst p) (snd p)) ps d.
Lemma put_nodup ps : forall d, NoDup (map fst d) -> NoDup (map fst (put_all d ps)).
Proof.
  induction ps as [|[k v] ps IH]; intros d H; [exact H|]. cbn. apply IH. destruct (set_key_keys d k v) as [[_ ->]|[N ->]]; [exact H|]. eapply Permutation_NoDup; [apply Permutation_app_comm|]. cbn. now constructor.
Qed.
Lemma put_keys ps : forall d k, In k (map fst (put_all d ps)) <-> In k (map fst d) \/ In k (map fst ps).
Proof.
  induction ps as [|[x v] ps IH]; intros d k; cbn; [tauto|]. unfold put_all in IH. rewrite IH. destruct (set_key_keys d x v) as [[H ->]|[N ->]].
  - split; [tauto|]. intros [?|[<-|?]]; auto.
  - rewrite in_app_iff. cbn. tauto.
Qed.
Lemma put_in ps : forall d p, In p (put_all d ps) -> In p d \/ In p ps.
Proof. induction ps as [|[x v] ps IH]; intros d p; cbn; [tauto|]. intros H. apply IH in H as [H|H]; [|auto]. apply set_key_in in H as [H| ->]; auto. Qed.
Lemma put_fresh ps : forall d, NoDup (map fst d ++ map fst ps) -> map fst (put_all d ps) = map fst d ++ map fst ps.
Proof.
  induction ps as [|[x v] ps IH]; intros d H; cbn; [now rewrite app_nil_r|]. cbn in H. assert (N : ~ In x (map fst d)). { apply NoDup_remove_2 in H. intros X. apply H. apply in_app_iff. now left. }
  destruct (set_key_keys d x v) as [[Hx _]|[_ E]]; [contradiction|]. unfold put_all in IH. rewrite IH; rewrite E, <- app_assoc; [reflexivity|exact H].
Qed.
Definition corr_key (z : Z) : option string := match stokes_id z with Some s => Some (lower s) | None => None end.
Lemma names_spec ids names : comprehend (fun z => match stokes_id z with Some s => Ok (lower s) | None => Raise ValueError end) ids = Ok names <-> map corr_key ids = map Some names.
Proof.
  revert names. induction ids as [|z ids IH]; intros names; cbn [comprehend map].
  - split; [intros E; injection E as <-; reflexivity|]. now destruct names.
  - unfold corr_key at 1. destruct (stokes_id z); cbn [bind].
    + split.
      * intros E. apply bind_ok' in E as (ns & En & E). injection E as <-. cbn. f_equal. now apply IH.
      * destruct names as [|n ns]; [discriminate|]. cbn. intros E. injection E as <- E. apply IH in E. now rewrite E.
    + split; [discriminate|]. now destruct names.
Qed.
Lemma pairs_spec schema names ps : comprehend (fun c => do! f <- re_im_filenames c schema; Ok (c, f)) names = Ok ps -> map fst ps = names /\ forall p, In p ps -> re_im_filenames (fst p) schema = Ok (snd p).
Proof.
  intros H. apply compr_ok in H. induction H as [|c p names ps E _ [IH1 IH2]]; [split; [reflexivity|easy]|]. apply bind_ok' in E as (f & Ef & E). injection E as <-. cbn. split; [now rewrite IH1|]. intros p [<-|Hp]; [exact Ef|now apply IH2].
Qed.
Lemma stokes_inj a b s : corr_key a = Some s -> corr_key b = Some s -> a = b.
Proof.
  unfold corr_key, stokes_id. destruct (Z.ltb_spec a 0); [discriminate|]. destruct (Z.ltb_spec b 0); [discriminate|]. destruct (nth_error stokes_types (Z.to_nat a)) as [x|] eqn:Ea; [|discriminate]. destruct (nth_error stokes_types (Z.to_nat b)) as [y|] eqn:Eb; [|discriminate]. intros E1 E2.
  assert (N : NoDup (map lower stokes_types)). { vm_compute. repeat constructor; cbn; intros X; repeat (destruct X as [X|X]; [discriminate|]); easy. }
  apply (map_nth_error lower) in Ea, Eb. assert (Q : Z.to_nat a = Z.to_nat b); [|lia]. eapply (NoDup_nth_error (map lower stokes_types)); [exact N|apply nth_error_Some; congruence|congruence].
Qed.

(* str.strip *)
Lemma is_space_blank c : is_space c = true <-> blank c.
Proof. destruct c as [[] [] [] [] [] [] [] []]; vm_compute; intuition (congruence || lia). Qed.
Lemma lstrip_ok s : exists a, s = (a ++ lstrip s)%string /\ (forall i c, String.get i a = Some c -> blank c) /\ (forall c, String.get 0 (lstrip s) = Some c -> ~ blank c).
Proof.
  induction s as [|c s IH]; [exists EmptyString; repeat split; [intros i d E; destruct i; discriminate|intros d E; discriminate]|].
  cbn [lstrip]. destruct (is_space c) eqn:E.
  - destruct IH as (a & Ea & H1 & H2). exists (String c a). split; [cbn; now rewrite <- Ea|]. split; [|exact H2].
    intros [|i] d Ed; cbn in Ed; [injection Ed as <-; now apply is_space_blank|exact (H1 i d Ed)].
  - exists EmptyString. split; [reflexivity|]. split; [intros i d Ed; destruct i; discriminate|].
    intros d Ed. cbn in Ed. injection Ed as <-. intros B. apply is_space_blank in B. congruence.
Qed.
Lemma rstrip_ok s : exists b, s = (rstrip s ++ b)%string /\ (forall i c, String.get i b = Some c -> blank c) /\
  (forall c, String.get (String.length (rstrip s) - 1) (rstrip s) = Some c -> ~ blank c) /\
  (rstrip s <> EmptyString -> String.get 0 (rstrip s) = String.get 0 s).
Proof.
  induction s as [|c s IH]; [exists EmptyString; repeat split; [intros i d E; destruct i; discriminate|intros d E; discriminate]|].
  destruct IH as (b & Eb & H1 & H2 & H3). cbn [rstrip]. destruct (rstrip s) as [|d t] eqn:Er.
  - destruct (is_space c) eqn:E.
    + exists (String c b). cbn in Eb |- *. split; [now rewrite Eb|]. split; [|split; [discriminate|congruence]].
      intros [|i] e Ee; cbn in Ee; [injection Ee as <-; now apply is_space_blank|exact (H1 i e Ee)].
    + exists b. cbn in Eb |- *. split; [now rewrite <- Eb|]. split; [exact H1|]. split; [|reflexivity].
      intros e Ee. injection Ee as <-. intros B. apply is_space_blank in B. congruence.
  - exists b. split; [cbn in Eb |- *; now rewrite Eb|]. split; [exact H1|]. split; [|reflexivity].
    intros e Ee. apply H2. cbn in Ee |- *. rewrite !Nat.sub_0_r in *. exact Ee.
Qed.
Lemma strip_ok s : stripped s (strip s).
Proof.
  unfold strip. destruct (lstrip_ok s) as (a & Ea & A1 & A2). destruct (rstrip_ok (lstrip s)) as (b & Eb & B1 & B2 & B3).
  exists a, b. split; [rewrite <- Eb; exact Ea|]. split; [exact A1|]. split; [exact B1|]. split; [|exact B2].
  intros c E. destruct (rstrip (lstrip s)) as [|d t]; [discriminate|]. apply A2. rewrite <- B3 by discriminate. exact E.
Qed.
