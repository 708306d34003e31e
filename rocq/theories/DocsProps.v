(* C126: docstring templates and file digests. *)
From Coq Require Import Ascii String Lia.
From Verif Require Import Prelude DocsModel DocsSpec DocsProofs.
Open Scope list_scope.

(* A template comes out with every value in its place, or there is a KeyError if a name has no value. *)
Theorem C126_fields : forall m ps, well_formed ps ->
  substitute m (template ps) = match filled m ps with Some t => Ok t | None => Raise KeyError end.
Proof. intros m ps. apply fields. apply le_n. Qed.
(* Nothing else comes out: what is substituted was a template. *)
Theorem C126_only_templates : forall m s t, substitute m s = Ok t -> exists ps, well_formed ps /\ s = template ps /\ filled m ps = Some t.
Proof. exact only_templates. Qed.
(* Anything else is a ValueError. *)
Theorem C126_malformed : forall m s, (forall x, name x -> m x <> None) -> (~ exists ps, well_formed ps /\ s = template ps) -> substitute m s = Raise ValueError.
Proof. exact malformed. Qed.
(* Every occurrence of the search string, from left to right, becomes the replacement; the rest stays. *)
Theorem C126_replace : forall a b s, a <> [] ->
  exists parts last, s = concat (map (fun p => p ++ a) parts) ++ last /\ mod_docs s [(a, b)] = concat (map (fun p => p ++ b) parts) ++ last /\
    Forall (first_here a) parts /\ ~ occurs a last.
Proof.
  intros a b s Ha. change (mod_docs s [(a, b)]) with (replace a b s). unfold replace. destruct a as [|x a]; [contradiction|].
  apply (replaced (x :: a) b Ha). apply le_n.
Qed.
(* A documentation tuple is its fields one after another.  Replacing in the fields is replacing in the whole, unless an occurrence
   straddles two fields. *)
Theorem C126_joined : forall a b fields, a <> [] -> (forall l f r, fields = l ++ f :: r -> no_straddle a f (concat r)) ->
  doc_tuple_to_str (Some fields) (Some [(a, b)]) = Ok (mod_docs (concat fields) [(a, b)]).
Proof.
  intros a b fields Ha H. cbn [doc_tuple_to_str]. f_equal. change (mod_docs (concat fields) [(a, b)]) with (replace a b (concat fields)).
  induction fields as [|f r IH].
  - destruct a; [contradiction|reflexivity].
  - cbn [map concat]. rewrite IH by (intros l f' r' E; apply (H (f :: l) f' r'); now rewrite E).
    change (mod_docs f [(a, b)]) with (replace a b f). unfold replace. destruct a as [|x a]; [contradiction|]. set (y := x :: a) in *.
    rewrite (distributes y b Ha (S (List.length (f ++ concat r))) f (concat r)) by (try lia; apply (H [] f r eq_refl)).
    rewrite (replace_fuel y b Ha (S (List.length f)) (S (List.length (f ++ concat r)))) by (rewrite ?app_length; lia).
    now rewrite (replace_fuel y b Ha (S (List.length (concat r))) (S (List.length (f ++ concat r)))) by (rewrite ?app_length; lia).
Qed.
(* Several replacements are made one after another, in their order, in every field. *)
Theorem C126_one_after_another : forall fields rs rs',
  doc_tuple_to_str (Some fields) (Some (rs ++ rs')) = doc_tuple_to_str (Some (map (fun f => mod_docs f rs) fields)) (Some rs') /\
  doc_tuple_to_str (Some fields) (Some []) = Ok (concat fields) /\ doc_tuple_to_str (Some fields) None = Ok (concat fields).
Proof.
  intros fields rs rs'. cbn [doc_tuple_to_str]. split; [|split; [|reflexivity]].
  - rewrite map_map. f_equal. f_equal. apply map_ext. intros f. unfold mod_docs. apply fold_left_app.
  - now rewrite map_id.
Qed.
Definition str (s : string) : text := list_ascii_of_string s.
Theorem C126_straddle_refuted : ~ forall a b fields, a <> [] ->
  doc_tuple_to_str (Some fields) (Some [(a, b)]) = Ok (mod_docs (concat fields) [(a, b)]).
Proof.
  intros H. specialize (H (str "numpy.ndarray") (str "dask.array.Array") [str "a numpy."; str "ndarray"] ltac:(discriminate)). vm_compute in H. discriminate.
Qed.
(* The digest of a file is that of its contents, whatever the size of the blocks and however many bytes each read returns. *)
Theorem C126_digest : forall (St Dg : Type) (init : St) update (hexdigest : St -> Dg), (forall s, update s [] = s) -> (forall s a b, update (update s a) b = update s (a ++ b)) ->
  forall got size contents, 0 < size -> sha_hash_file init update hexdigest got size contents = hexdigest (update init contents).
Proof. exact @file_hash. Qed.

(* a template with all kinds of pieces *)
Definition example_pieces := [Plain "a"; Dollar; Field (str "x_1"); Plain "-"; Braced (str "array_type"); Plain "b"]%char.
Definition example_map (x : text) : option text := if list_eq_dec ascii_dec x (str "x_1") then Some (str "ONE") else if list_eq_dec ascii_dec x (str "array_type") then Some (str "ndarray") else None.
Lemma name_of s c r : s = c :: r -> letter c = true -> forallb id_char r = true -> name s.
Proof.
  intros -> L F. exists c, r. split; [reflexivity|]. split; [now apply letter_spec|]. apply Forall_forall. intros d Hd. apply id_char_spec. rewrite forallb_forall in F. now apply F.
Qed.
Example example_filled : well_formed example_pieces /\ template example_pieces = str "a$$$x_1-$(array_type)b" /\
  substitute example_map (str "a$$$x_1-$(array_type)b") = Ok (str "a$ONE-ndarrayb") /\
  substitute example_map (str "$(other)") = Raise KeyError /\ substitute example_map (str "${x_1}") = Raise ValueError.
Proof.
  split; [|split; [reflexivity|split; [reflexivity|split; reflexivity]]].
  repeat split; try discriminate.
  - eapply name_of; reflexivity.
  - rewrite <- id_char_spec. discriminate.
  - eapply name_of; reflexivity.
Qed.
Example example_replaced : mod_docs (str "a numpy.ndarray and numpy.ndarray") [(str "numpy.ndarray", str "dask.array.Array")] = str "a dask.array.Array and dask.array.Array".
Proof. reflexivity. Qed.
(* a hash that adds up the bytes and counts them, read in blocks of 2, 1 and 3 bytes *)
Example example_digest : sha_hash_file (St := nat * nat) (0, 0) (fun s a => (fst s + List.length a, fold_left (fun k c => k + nat_of_ascii c) a (snd s))) (fun s => s)
  (fun i => nth i [1; 0; 7] 0) 3 (str "abcdef") = (6, 597).
Proof. reflexivity. Qed.
Print Assumptions C126_fields. Print Assumptions C126_only_templates. Print Assumptions C126_malformed. Print Assumptions C126_replace. Print Assumptions C126_joined. Print Assumptions C126_one_after_another. Print Assumptions C126_straddle_refuted. Print Assumptions C126_digest.
