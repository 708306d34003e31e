(* C126: docstring templates and file digests. *)
From Coq Require Import Ascii String Lia.
From Verif Require Import Prelude DocsModel DocsSpec.
Open Scope char_scope.
Open Scope list_scope.

Lemma existsb_in c l : existsb (Ascii.eqb c) l = true <-> In c l.
Proof. rewrite existsb_exists. split; [intros (x & H & E); apply Ascii.eqb_eq in E; now subst|intros H; exists c; split; [exact H|apply Ascii.eqb_refl]]. Qed.
Lemma letter_spec c : letter c = true <-> In c letters.
Proof.
  rewrite <- existsb_in. assert (H : letter c = existsb (Ascii.eqb c) letters); [|now rewrite H].
  destruct c as [[] [] [] [] [] [] [] []]; vm_compute; reflexivity.
Qed.
Lemma id_char_spec c : id_char c = true <-> In c (letters ++ digits).
Proof.
  rewrite <- existsb_in. assert (H : id_char c = existsb (Ascii.eqb c) (letters ++ digits)); [|now rewrite H].
  destruct c as [[] [] [] [] [] [] [] []]; vm_compute; reflexivity.
Qed.
Lemma letter_id c : letter c = true -> id_char c = true.
Proof. unfold id_char. intros ->. reflexivity. Qed.
Lemma dollar_no : id_char "$" = false. Proof. reflexivity. Qed.
Lemma paren_no : id_char ")" = false. Proof. reflexivity. Qed.

Lemma span_app p a b : Forall (fun c => p c = true) a -> match b with c :: _ => p c = false | [] => True end -> span p (a ++ b) = (a, b).
Proof.
  induction 1 as [|c a Hc Ha IH]; intros Hb; cbn [app span].
  - destruct b as [|c b]; [reflexivity|]. cbn. now rewrite Hb.
  - rewrite Hc, IH by exact Hb. reflexivity.
Qed.
Lemma span_spec p s : forall a b, span p s = (a, b) -> s = a ++ b /\ Forall (fun c => p c = true) a /\ match b with c :: _ => p c = false | [] => True end.
Proof.
  induction s as [|c s IH]; intros a b E; cbn in E; [injection E as <- <-; repeat split; constructor|].
  destruct (p c) eqn:Ec.
  - destruct (span p s) as [a' b']. injection E as <- <-. destruct (IH _ _ eq_refl) as (-> & F & N). repeat split; [constructor; assumption|exact N].
  - injection E as <- <-. repeat split; [constructor|exact Ec].
Qed.
Lemma name_chars x : name x -> exists c r, x = c :: r /\ letter c = true /\ Forall (fun c => id_char c = true) x.
Proof.
  intros (c & r & -> & L & F). exists c, r. split; [reflexivity|]. apply letter_spec in L. split; [exact L|].
  constructor; [now apply letter_id|]. eapply Forall_impl; [|exact F]. intros d Hd. now apply id_char_spec.
Qed.
Lemma identifier_app x b : name x -> match b with c :: _ => id_char c = false | [] => True end -> identifier (x ++ b) = Some (x, b).
Proof.
  intros N Hb. destruct (name_chars x N) as (c & r & Ex & L & F). unfold identifier. rewrite Ex at 1. cbn [app]. rewrite L. f_equal. now apply span_app.
Qed.
Lemma identifier_spec s x b : identifier s = Some (x, b) -> s = x ++ b /\ name x /\ match b with c :: _ => id_char c = false | [] => True end.
Proof.
  unfold identifier. destruct s as [|c s]; [discriminate|]. destruct (letter c) eqn:L; [|discriminate]. intros E.
  assert (E' : span id_char (c :: s) = (x, b)) by congruence. destruct (span_spec _ _ _ _ E') as (Es & F & N). clear E E'. split; [exact Es|]. split; [|exact N].
  destruct x as [|c' x].
  - cbn [app] in Es. rewrite <- Es in N. rewrite (letter_id c L) in N. discriminate.
  - injection Es as <- Es. exists c, x. split; [reflexivity|]. split; [now apply letter_spec|]. inversion F; subst. eapply Forall_impl; [|eassumption]. intros d Hd. now apply id_char_spec.
Qed.
(* what follows a $name does not continue it *)
Lemma follow ps : well_formed ps -> match ps with Plain c :: _ => ~ In c (letters ++ digits) | _ => True end ->
  match template ps with c :: _ => id_char c = false | [] => True end.
Proof.
  destruct ps as [|[c| |x|x] r]; intros W H; cbn; try exact I; try reflexivity.
  destruct (id_char c) eqn:E; [|reflexivity]. exfalso. apply H. now apply id_char_spec.
Qed.
Lemma ident_dollar s : identifier ("$" :: s) = None. Proof. reflexivity. Qed.
Lemma ident_paren s : identifier ("(" :: s) = None. Proof. reflexivity. Qed.

Theorem fields m : forall fuel ps, List.length (template ps) <= fuel -> well_formed ps ->
  subst fuel m (template ps) = match filled m ps with Some t => Ok t | None => Raise KeyError end.
Proof.
  induction fuel as [|fuel IH]; intros ps L W.
  - destruct ps as [|[c| |x|x] r]; cbn in L; try lia. reflexivity.
  - destruct ps as [|p r]; [reflexivity|]. change (template (p :: r)) with (written p ++ template r) in *. destruct W as [Wp Wr].
    rewrite app_length in L. cbn [filled]. destruct p as [c| |x|x]; cbn [written app meant] in *.
    + cbn [subst]. destruct (Ascii.eqb_spec c "$") as [|_]; [contradiction|]. rewrite IH by (cbn in L; try lia; assumption). destruct (filled m r); reflexivity.
    + cbn [subst]. rewrite Ascii.eqb_refl. rewrite IH by (cbn in L; try lia; assumption). destruct (filled m r); reflexivity.
    + destruct Wp as [N H]. destruct (name_chars x N) as (c & x' & Ex & Lc & F). cbn [subst]. rewrite Ascii.eqb_refl.
      rewrite (identifier_app x (template r) N (follow r Wr H)). rewrite Ex at 1. cbn [app].
      destruct (Ascii.eqb_spec c "$") as [->|_]; [discriminate|]. unfold value. destruct (m x) as [v|]; cbn [bind]; [|reflexivity].
      rewrite IH by (cbn in L; try lia; assumption). destruct (filled m r); reflexivity.
    + cbn [subst]. rewrite Ascii.eqb_refl, ident_paren. cbn [Ascii.eqb Bool.eqb]. rewrite <- app_assoc. cbn [app].
      rewrite (identifier_app x (")" :: template r) Wp eq_refl). rewrite Ascii.eqb_refl. unfold value. destruct (m x) as [v|]; cbn [bind]; [|reflexivity].
      cbn in L. rewrite !app_length in L. cbn in L. rewrite IH by (try lia; assumption). destruct (filled m r); reflexivity.
Qed.

(* every string: a template that is filled, or one with a name without value, or malformed *)
Lemma parse m : forall fuel s, List.length s <= fuel ->
  (exists ps, well_formed ps /\ s = template ps) \/ (exists e, subst fuel m s = Raise e /\ (e = ValueError \/ e = KeyError /\ exists x, name x /\ m x = None)).
Proof.
  assert (Val : forall x, name x -> m x = None -> exists x, name x /\ m x = None) by (intros; eexists; eauto).
  induction fuel as [|fuel IH]; intros s L.
  - destruct s; [|cbn in L; lia]. left. exists []. split; [exact I|reflexivity].
  - destruct s as [|c s1]; [left; exists []; split; [exact I|reflexivity]|]. cbn [subst]. cbn in L.
    destruct (Ascii.eqb_spec c "$") as [->|Nc].
    + destruct s1 as [|d s2]; [right; eexists; split; [reflexivity|now left]|]. cbn in L.
      destruct (Ascii.eqb_spec d "$") as [->|Nd].
      * destruct (IH s2 ltac:(lia)) as [(ps & W & ->)|(e & E & Q)].
        -- left. exists (Dollar :: ps). split; [split; [exact I|exact W]|reflexivity].
        -- right. exists e. rewrite E. split; [reflexivity|exact Q].
      * destruct (identifier (d :: s2)) as [[x s3]|] eqn:Ei.
        -- destruct (identifier_spec _ _ _ Ei) as (Es & N & Fo). unfold value. destruct (m x) as [v|] eqn:Em; cbn [bind].
           2:{ right. eexists. split; [reflexivity|]. right. split; [reflexivity|]. now exists x. }
           assert (L3 : List.length s3 <= fuel). { apply (f_equal (@List.length ascii)) in Es. cbn in Es. rewrite app_length in Es. lia. }
           destruct (IH s3 L3) as [(ps & W & ->)|(e & E & Q)].
           ++ left. exists (Field x :: ps). split; [split; [split; [exact N|]|exact W]|rewrite Es; reflexivity].
              destruct ps as [|[c'| |?|?] ps']; try exact I. cbn in Fo. rewrite <- id_char_spec. congruence.
           ++ right. exists e. rewrite E. split; [reflexivity|exact Q].
        -- destruct (Ascii.eqb_spec d "(") as [->|Np]; [|right; eexists; split; [reflexivity|now left]].
           destruct (identifier s2) as [[x [|e s3]]|] eqn:Ej; try (right; eexists; split; [reflexivity|now left]).
           destruct (identifier_spec _ _ _ Ej) as (Es & N & _).
           destruct (Ascii.eqb_spec e ")") as [->|Ne]; [|right; eexists; split; [reflexivity|now left]].
           unfold value. destruct (m x) as [v|] eqn:Em; cbn [bind].
           2:{ right. eexists. split; [reflexivity|]. right. split; [reflexivity|]. now exists x. }
           assert (L3 : List.length s3 <= fuel). { apply (f_equal (@List.length ascii)) in Es. rewrite app_length in Es. cbn in Es. lia. }
           destruct (IH s3 L3) as [(ps & W & ->)|(e & E & Q)].
           ++ left. exists (Braced x :: ps). split; [split; [exact N|exact W]|]. change (template (Braced x :: ps)) with ("$" :: "(" :: (x ++ [")"]) ++ template ps).
              rewrite <- app_assoc. cbn [app]. now rewrite Es.
           ++ right. exists e. rewrite E. split; [reflexivity|exact Q].
    + destruct (IH s1 ltac:(lia)) as [(ps & W & ->)|(e & E & Q)].
      * left. exists (Plain c :: ps). split; [split; [exact Nc|exact W]|reflexivity].
      * right. exists e. rewrite E. split; [reflexivity|exact Q].
Qed.
Theorem only_templates m s t : substitute m s = Ok t -> exists ps, well_formed ps /\ s = template ps /\ filled m ps = Some t.
Proof.
  intros E. destruct (parse m (List.length s) s (le_n _)) as [(ps & W & ->)|(e & E' & _)].
  - exists ps. split; [exact W|]. split; [reflexivity|]. unfold substitute in E. rewrite fields in E by (try lia; exact W). revert E. destruct (filled m ps); intros E; [injection E as ->; reflexivity|discriminate].
  - unfold substitute in E. congruence.
Qed.
Theorem malformed m s : (forall x, name x -> m x <> None) -> (~ exists ps, well_formed ps /\ s = template ps) -> substitute m s = Raise ValueError.
Proof.
  intros K N. destruct (parse m (List.length s) s (le_n _)) as [H|(e & E & [->|(-> & x & Nx & Ex)])]; [contradiction|exact E|]. exfalso. now apply (K x Nx).
Qed.

(* ---------- replace ---------- *)
Lemma starts_spec a s s' : starts a s = Some s' <-> s = a ++ s'.
Proof.
  revert s. induction a as [|x a IH]; intros s; cbn; [split; congruence|]. destruct s as [|y s]; [split; discriminate|].
  destruct (Ascii.eqb_spec x y) as [->|N]; [rewrite IH; split; congruence|]. split; [discriminate|]. intros E. congruence.
Qed.
Theorem replaced a b : a <> [] -> forall fuel s, List.length s < fuel ->
  exists parts last, s = concat (map (fun p => p ++ a) parts) ++ last /\ replace_ fuel a b s = concat (map (fun p => p ++ b) parts) ++ last /\
    Forall (first_here a) parts /\ ~ occurs a last.
Proof.
  intros Ha. induction fuel as [|fuel IH]; intros s L; [lia|]. cbn [replace_].
  destruct (starts a s) as [s'|] eqn:E.
  - apply starts_spec in E. subst s. rewrite app_length in L. assert (0 < List.length a) by (destruct a; [contradiction|cbn; lia]).
    destruct (IH s' ltac:(lia)) as (parts & last & -> & R & F & O). exists ([] :: parts), last. cbn [map concat app]. split; [now rewrite app_assoc|]. split; [rewrite R; now rewrite app_assoc|].
    split; [constructor; [|exact F]|exact O]. intros l r E. cbn in E. apply (f_equal (@List.length ascii)) in E. rewrite !app_length in E. destruct r; [reflexivity|cbn in E; lia].
  - assert (N : forall r, s <> a ++ r) by (intros r Er; apply starts_spec in Er; congruence).
    destruct s as [|c s'].
    + exists [], []. repeat split; [constructor|]. intros (l & r & E'). destruct l; [|discriminate]. now apply (N r).
    + cbn in L. destruct (IH s' ltac:(lia)) as (parts & last & Es & R & F & O). destruct parts as [|p parts].
      * exists [], (c :: last). cbn in *. subst s'. split; [reflexivity|]. split; [now rewrite R|]. split; [constructor|].
        intros (l & r & E'). destruct l as [|c' l]; [now apply (N r)|]. injection E' as <- E'. apply O. now exists l, r.
      * exists ((c :: p) :: parts), last. cbn [map concat app] in *. subst s'. split; [reflexivity|]. split; [now rewrite R|]. inversion F as [|? ? F1 F2]; subst. split; [|exact O].
        constructor; [|exact F2]. intros l r E'. destruct l as [|c' l].
        -- exfalso. cbn in E'. apply (N (r ++ concat (map (fun p => p ++ a) parts) ++ last)). rewrite (app_assoc a). rewrite <- E'. cbn [app]. f_equal. now rewrite <- !app_assoc.
        -- injection E' as <- E'. now apply (F1 l r).
Qed.
Lemma replace_fuel a b : a <> [] -> forall f g s, List.length s < f -> List.length s < g -> replace_ f a b s = replace_ g a b s.
Proof.
  intros Ha. assert (0 < List.length a) by (destruct a; [contradiction|cbn; lia]).
  induction f as [|f IH]; intros g s Lf Lg; [lia|]. destruct g as [|g]; [lia|]. cbn [replace_]. destruct (starts a s) as [s'|] eqn:E.
  - apply starts_spec in E. subst s. rewrite app_length in *. f_equal. apply IH; lia.
  - destruct s; [reflexivity|]. cbn in *. f_equal. apply IH; lia.
Qed.
Theorem distributes a b : a <> [] -> forall fuel s t, List.length (s ++ t) < fuel -> no_straddle a s t -> replace_ fuel a b (s ++ t) = replace_ fuel a b s ++ replace_ fuel a b t.
Proof.
  intros Ha. assert (La : 0 < List.length a) by (destruct a; [contradiction|cbn; lia]).
  induction fuel as [|fuel IH]; intros s t L N; [lia|]. destruct s as [|c s].
  - cbn [app]. rewrite (eq_refl : replace_ (S fuel) a b [] = match starts a [] with Some s' => b ++ replace_ fuel a b s' | None => [] end).
    destruct a; [contradiction|]. reflexivity.
  - destruct (starts a ((c :: s) ++ t)) as [u|] eqn:E.
    + pose proof E as E0. apply starts_spec in E. destruct (N [] u E) as [H|H]; [|cbn in H; lia]. cbn in H.
      assert (X : exists s', c :: s = a ++ s' /\ u = s' ++ t).
      { exists (skipn (List.length a) (c :: s)). assert (F : firstn (List.length a) ((c :: s) ++ t) = a) by (rewrite E, firstn_app, Nat.sub_diag, firstn_all, firstn_O, app_nil_r; reflexivity).
        assert (K : skipn (List.length a) ((c :: s) ++ t) = u) by (rewrite E, skipn_app, Nat.sub_diag, skipn_all; reflexivity).
        rewrite firstn_app in F. rewrite skipn_app in K. replace (List.length a - List.length (c :: s)) with 0 in F, K by (cbn; lia).
        rewrite firstn_O, app_nil_r in F. cbn [skipn] in K. split; [rewrite <- F at 1; symmetry; apply firstn_skipn|symmetry; exact K]. }
      destruct X as (s' & Es & ->).
      assert (L' : List.length ((c :: s) ++ t) = List.length a + List.length (s' ++ t)) by (rewrite E, app_length; reflexivity). rewrite L', app_length in L.
      rewrite (replace_fuel a b Ha (S fuel) fuel t) by lia. cbn [replace_]. rewrite E0. assert (E1 : starts a (c :: s) = Some s') by (now apply starts_spec). rewrite E1, <- app_assoc. f_equal.
      apply IH.
      * rewrite app_length. lia.
      * intros l r El. destruct (N (a ++ l) r ltac:(rewrite E, El, <- app_assoc; reflexivity)) as [Q|Q]; rewrite Es, !app_length in Q; [left|right]; lia.
    + rewrite (replace_fuel a b Ha (S fuel) fuel t) by (cbn in L; rewrite app_length in L; lia). cbn [replace_]. rewrite E. assert (E1 : starts a (c :: s) = None).
      { destruct (starts a (c :: s)) as [s'|] eqn:E1; [|reflexivity]. apply starts_spec in E1. assert (X : starts a ((c :: s) ++ t) = Some (s' ++ t)) by (apply starts_spec; rewrite E1, <- app_assoc; reflexivity). congruence. }
      rewrite E1. cbn [app] in *. f_equal. cbn in L. apply IH.
      * lia.
      * intros l r El. destruct (N (c :: l) r ltac:(cbn; now rewrite El)) as [Q|Q]; cbn in Q; [left|right]; lia.
Qed.

(* ---------- digests ---------- *)
Section Hash.
  Context {St Dg : Type} (init : St) (update : St -> text -> St) (hexdigest : St -> Dg).
  Context (Nil : forall s, update s [] = s) (App : forall s a b, update (update s a) b = update s (a ++ b)).
  Lemma hash_all got size : 0 < size -> forall fuel i left st, List.length left < fuel -> hash_loop update fuel got i size left st = update st left.
  Proof using Nil App.
    intros Hs. induction fuel as [|fuel IH]; intros i left st L; [lia|]. cbn [hash_loop read]. set (k := Nat.min size (S (got i))). assert (0 < k) by (unfold k; lia).
    destruct left as [|c left]; [rewrite firstn_nil; now rewrite Nil|]. destruct k as [|k]; [lia|]. cbn [firstn skipn]. cbn in L. rewrite IH.
    - rewrite App. cbn [app]. now rewrite firstn_skipn.
    - rewrite skipn_length. lia.
  Qed.
  Theorem file_hash got size contents : 0 < size -> sha_hash_file init update hexdigest got size contents = hexdigest (update init contents).
  Proof using Nil App. intros H. unfold sha_hash_file. rewrite hash_all by (try assumption; lia). reflexivity. Qed.
End Hash.
