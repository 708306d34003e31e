(* Properties C18-C25 and C78: chunk aggregation, shapes, register rotations, singletons,
   memoisation and optional requirements. *)
From Coq Require Import String.
From Verif Require Import Prelude PreludeFacts UtilModel UtilSpec UtilProofs UtilProofs2 UtilProofs3.
Open Scope nat_scope.

(* ------------------------------------------------------------------ C18 *)
(* [gs] says how many consecutive original chunks each aggregate joins; the same
   grouping is used for every dimension.  [aggregation] (UtilSpec) states cover, fit,
   greediness and where an empty aggregate may occur. *)
Theorem C18_aggregate_chunks a :
  let '(chunks, maxs) := match a with Single c m => ([c], [m]) | Many c m => (c, m) end in
  match aggregate_chunks a with
  | Ok out => exists n gs, length chunks = length maxs /\ chunks <> [] /\ 0 < n /\
      (forall c, In c chunks -> length c = n) /\
      aggregation chunks maxs n gs /\
      (forall c, In c chunks -> list_sum (map list_sum (cut gs c)) = list_sum c) /\
      out = match chunks with
            | [c] => Flat (map list_sum (cut gs c))
            | _ => Nested (map (fun c => map list_sum (cut gs c)) chunks)
            end
  | Raise ValueError => length chunks <> length maxs \/
      exists c1 c2, In c1 chunks /\ In c2 chunks /\ length c1 <> length c2
  | Raise IndexError => chunks = [] /\ maxs = []
  | Raise NameError => length chunks = length maxs /\ chunks <> [] /\ forall c, In c chunks -> c = []
  | Raise _ => False
  end.
Proof.
  assert (X : forall chunks maxs, match (do! l <- aggregate_core chunks maxs;
      Ok (match maxs, l with [_], x :: _ => Flat x | _, _ => Nested l end)) with
  | Ok out => exists n gs, length chunks = length maxs /\ chunks <> [] /\ 0 < n /\
      (forall c, In c chunks -> length c = n) /\
      aggregation chunks maxs n gs /\
      (forall c, In c chunks -> list_sum (map list_sum (cut gs c)) = list_sum c) /\
      out = match chunks with
            | [c] => Flat (map list_sum (cut gs c))
            | _ => Nested (map (fun c => map list_sum (cut gs c)) chunks)
            end
  | Raise ValueError => length chunks <> length maxs \/
      exists c1 c2, In c1 chunks /\ In c2 chunks /\ length c1 <> length c2
  | Raise IndexError => chunks = [] /\ maxs = []
  | Raise NameError => length chunks = length maxs /\ chunks <> [] /\ forall c, In c chunks -> c = []
  | Raise _ => False
  end).
  { intros chunks maxs. pose proof (aggregate_core_spec chunks maxs) as H.
    destruct (aggregate_core chunks maxs) as [out|e]; cbn [bind]; [|exact H].
    destruct H as [n [gs [H1 [H2 [H3 [H4 [H5 ->]]]]]]]. exists n, gs.
    repeat (split; [assumption|]). split.
    - intros c Hc. apply list_sum_cut. rewrite (ag_cover _ _ _ _ H5). symmetry. auto.
    - destruct chunks as [|c [|c' l]]; [congruence| |]; destruct maxs as [|m [|m' r]]; try discriminate; reflexivity. }
  destruct a as [c m|c m]; [exact (X [c] [m])|exact (X c m)].
Qed.
Print Assumptions C18_aggregate_chunks.
Example C18_example :
  aggregate_chunks (Single [3; 4; 6; 3; 6; 7] 10) = Ok (Flat [7; 9; 6; 7]) /\
  aggregate_chunks (Many [[3; 4; 6; 3; 6; 7]; [1; 1; 1; 1; 1; 1]] [10; 3])
    = Ok (Nested [[7; 9; 6; 7]; [2; 2; 1; 1]]) /\
  aggregate_chunks (Many [[3; 4]; [1]] [10; 3]) = Raise ValueError.
Proof. vm_compute. repeat split. Qed.

(* ------------------------------------------------------------------ C19 *)
(* Greediness and the only possible empty aggregate, for the sequence form. *)
Theorem C19_greedy_no_empty chunks maxs out :
  aggregate_core chunks maxs = Ok out ->
  exists gs, out = map (fun c => map list_sum (cut gs c)) chunks /\
    (forall k, S k < length gs ->
       exists d c mx s1 s2, nth_error chunks d = Some c /\ nth_error maxs d = Some mx /\
         nth_error (cut gs c) k = Some s1 /\ nth_error (cut gs c) (S k) = Some s2 /\
         mx < list_sum s1 + hd 0 s2) /\
    ((forall d c mx, nth_error chunks d = Some c -> nth_error maxs d = Some mx -> hd 0 c <= mx) ->
       ~ In 0 gs).
Proof.
  intros H. pose proof (aggregate_core_spec chunks maxs) as S. rewrite H in S.
  destruct S as [n [gs [H1 [H2 [H3 [H4 [H5 ->]]]]]]]. exists gs. split; [reflexivity|].
  split; [exact (ag_greedy _ _ _ _ H5)|].
  intros F I. apply In_nth_error in I. destruct I as [k K].
  destruct (ag_empty _ _ _ _ H5 k K) as [_ [d [c [mx [A [B C]]]]]]. specialize (F d c mx A B). lia.
Qed.
Print Assumptions C19_greedy_no_empty.
(* a first chunk above the maximum yields a leading empty chunk *)
Example C19_leading_empty_chunk :
  aggregate_chunks (Single [20; 5] 10) = Ok (Flat [0; 20; 5]).
Proof. reflexivity. Qed.

(* ------------------------------------------------------------------ C20 *)
Theorem C20_corr_shape ncorr s :
  match corr_shape ncorr s with
  | Ok l => shape_size l = ncorr /\ ((s = "flat"%string /\ l = [ncorr]) \/
      (s = "matrix"%string /\ (ncorr = 1 \/ ncorr = 2 \/ ncorr = 4)%Z /\
       l = if Z.eqb ncorr 4 then [2; 2]%Z else [ncorr]))
  | Raise e => e = ValueError /\ s <> "flat"%string /\
      (s = "matrix"%string -> ncorr <> 1 /\ ncorr <> 2 /\ ncorr <> 4)%Z
  end.
Proof. exact (corr_shape_spec ncorr s). Qed.
Print Assumptions C20_corr_shape.
Example C20_example : corr_shape 4 "matrix" = Ok [2; 2]%Z /\ corr_shape 3 "matrix" = Raise ValueError /\
  corr_shape 3 "flat" = Ok [3%Z] /\ corr_shape 4 "round" = Raise ValueError.
Proof. repeat split. Qed.

(* ------------------------------------------------------------------ C21 *)
Theorem C21_grids dims blocks : (forall b, In b blocks -> (0 < b)%Z) ->
  match grids dims blocks with
  | Ok g => length dims = 3 /\ length blocks = 3 /\ length g = 3 /\
      forall i d b x, nth_error dims i = Some d -> nth_error blocks i = Some b -> nth_error g i = Some x ->
        (d <= x * b /\ forall y, d <= y * b -> x <= y)%Z
  | Raise e => e = ValueError /\ (length dims <> 3 \/ length blocks <> 3)
  end.
Proof. exact (grids_spec dims blocks). Qed.
Print Assumptions C21_grids.
Example C21_example : grids [70; 64; 1]%Z [32; 32; 4]%Z = Ok [3; 2; 1]%Z /\ grids [70; 64]%Z [32; 32; 4]%Z = Raise ValueError.
Proof. split; reflexivity. Qed.

(* ------------------------------------------------------------------ C22 *)
(* Executing the cycles moves element (x - case) mod N to position x, for every N and
   every case (also negative or larger than N). *)
Theorem C22_register_cycles N case : exists cs, register_assign_cycles N case = Ok cs /\
  (forall c, In c cs -> is_cycle c) /\
  NoDup (map fst (concat cs)) /\
  (forall d s, In (d, s) (concat cs) <-> d < N /\ d <> s /\ s < N /\
               Z.of_nat s = ((Z.of_nat d - case) mod Z.of_nat N)%Z) /\
  (forall A (a : arr A) x, x < N ->
     run_cycles cs a x = a (Z.to_nat ((Z.of_nat x - case) mod Z.of_nat N))) /\
  (forall A (a : arr A) x, N <= x -> run_cycles cs a x = a x).
Proof. exact (register_cycles_full N case). Qed.
Print Assumptions C22_register_cycles.
Example C22_example : match register_assign_cycles 4 2 with
  | Ok cs => cs = [[(3, 1); (1, 3)]; [(2, 0); (0, 2)]] /\
             to_list 4 (run_cycles cs (of_list 0 [10; 11; 12; 13])) = [12; 13; 10; 11]
  | Raise _ => False end.
Proof. vm_compute. split; reflexivity. Qed.

(* ------------------------------------------------------------------ C23 *)
(* Every schedule of any number of threads.  [nth_error (rev (s_made s)) k = Some c]
   says that the k-th object ever constructed is a c. *)
Theorem C23_singleton parent truthy cls_of :
  (forall o, truthy o = true) -> unrelated parent cls_of -> forall sched,
  let s := s_run parent truthy cls_of sched in
  NoDup (s_made s) /\
  (forall t o, s_pcs s t = SDone o -> exists k, o = Some k /\ nth_error (rev (s_made s)) k = Some (cls_of t)) /\
  (forall t t' o o', s_pcs s t = SDone o -> s_pcs s t' = SDone o' -> cls_of t = cls_of t' -> o = o') /\
  (forall t, s_step parent truthy cls_of s t = None -> (exists o, s_pcs s t = SDone o) \/
     exists t', t' <> t /\ s_lock s = Some t' /\ s_step parent truthy cls_of s t' <> None).
Proof. intros H1 H2 sched. exact (singleton_spec parent truthy cls_of H1 H2 sched). Qed.
Print Assumptions C23_singleton.
(* three threads, two classes, interleaved *)
Definition ex23_cls (t : nat) : nat := if Nat.eqb t 2 then 7 else 5.
Example C23_example :
  unrelated (fun _ => None) ex23_cls /\
  let s := s_run (fun _ => None) (fun _ => true) ex23_cls
             [0; 1; 2; 0; 1; 2; 0; 1; 2; 0; 0; 1; 0; 0; 1; 1; 1; 1; 2; 2; 2; 2; 2; 2] in
  s_made s = [7; 5] /\ s_pcs s 0 = SDone (Some 0) /\ s_pcs s 1 = SDone (Some 0) /\ s_pcs s 2 = SDone (Some 1).
Proof.
  split; [|vm_compute; repeat split].
  intros t t' A. inversion A; [congruence|discriminate].
Qed.

(* Without "unrelated": after instance() of a class, instance() of a subclass returns the
   object of the base class. *)
Theorem C23_subclass_refuted :
  exists parent truthy cls_of sched, (forall o, truthy o = true) /\ cls_of 0 <> cls_of 1 /\
    let s := s_run parent truthy cls_of sched in
    s_pcs s 1 = SDone (Some 0) /\ rev (s_made s) = [cls_of 0].
Proof.
  exists (fun c => if Nat.eqb c 2 then Some 1 else None), (fun _ => true), (fun t => S t),
         [0; 0; 0; 0; 0; 0; 0; 1; 1; 1].
  split; [auto|]. split; [discriminate|]. vm_compute. split; reflexivity.
Qed.
Print Assumptions C23_subclass_refuted.
(* Without truthiness: the constructor runs for every call. *)
Theorem C23_falsy_refuted :
  exists parent truthy cls_of sched, unrelated parent cls_of /\
    let s := s_run parent truthy cls_of sched in
    cls_of 0 = cls_of 1 /\ s_pcs s 0 = SDone (Some 0) /\ s_pcs s 1 = SDone (Some 1).
Proof.
  exists (fun _ => None), (fun _ => false), (fun _ => 3), [0; 0; 0; 0; 0; 0; 0; 1; 1; 1; 1; 1; 1; 1].
  split; [intros t t' A; reflexivity|]. vm_compute. repeat split; reflexivity.
Qed.
Print Assumptions C23_falsy_refuted.

(* ------------------------------------------------------------------ C24 *)
(* Every interleaving.  The log is the history of observable events, newest first:
   EvRet t k r - a call with key k returned/raised r to thread t; EvRun t k r - the wrapped
   function was executed by t for key k with outcome r. *)
Theorem C24_memoize {V} acts :
  let s := @m_run V acts in
  (forall l2 l1 t k r, m_log s = l2 ++ EvRet t k r :: l1 ->
      last_of t l1 = Some (EvRun t k r) \/
      (last_of t l1 = Some (EvCall t k) /\ exists v, r = Ok v /\ ran_ok k v l1)) /\
  (forall l2 l1 t k r, m_log s = l2 ++ EvRun t k r :: l1 ->
      last_of t l1 = Some (EvCall t k) /\ forall v, ~ ran_ok k v l1) /\
  (forall t t' k v v', In (EvRet t k (Ok v)) (m_log s) -> In (EvRet t' k (Ok v')) (m_log s) -> v = v') /\
  (forall a, m_step s a = s -> exists k t', m_pcs s (act_thread a) = MWait k /\
      m_lock s = Some t' /\ t' <> act_thread a /\ forall k o,
      m_step s {| act_thread := t'; act_key := k; act_out := o |} <> s).
Proof. exact (memo_spec acts). Qed.
Print Assumptions C24_memoize.
(* in particular no two successful executions for one key *)
Theorem C24_one_success {V} acts l1 l2 l3 t t' k v v' :
  m_log (@m_run V acts) <> l1 ++ EvRun t k (Ok v) :: l2 ++ EvRun t' k (Ok v') :: l3.
Proof. intros E. exact (justified_once _ (mi_hist _ (minv_run acts)) l1 l2 l3 t t' k v v' E). Qed.
Print Assumptions C24_one_success.
Definition ex24_act (t k v : nat) : @m_act nat := {| act_thread := t; act_key := k; act_out := Ok v |}.
Definition ex24_bad (t k : nat) : @m_act nat := {| act_thread := t; act_key := k; act_out := Raise TypeError |}.
(* thread 0 raises, thread 1 waits and then computes, thread 0 retries and hits *)
Example C24_example :
  m_log (m_run [ex24_act 0 5 9; ex24_act 1 5 9; ex24_act 0 5 9; ex24_act 1 5 9; ex24_act 0 5 9;
                ex24_bad 0 5; ex24_bad 0 5; ex24_act 1 5 8; ex24_act 1 5 8; ex24_act 0 5 9; ex24_act 1 5 8;
                ex24_act 1 5 9; ex24_act 0 5 7; ex24_act 0 5 7; ex24_act 0 5 7])
  = [EvRet 0 5 (Ok 8); EvRet 1 5 (Ok 8); EvRun 1 5 (Ok 8); EvCall 0 5; EvRet 0 5 (Raise TypeError);
     EvRun 0 5 (Raise TypeError); EvCall 1 5; EvCall 0 5].
Proof. vm_compute. reflexivity. Qed.

(* ------------------------------------------------------------------ C25 *)
Theorem C25_requires_optional e reqs :
  requires_optional e reqs =
    if on_rtd e then Ok PassStub
    else if existsb bad reqs then Raise TypeError
    else match missing_of e reqs, errors_of reqs with
         | [], [] => Ok Original
         | [], _ :: _ => Raise ImportErrorExn
         | ms, er => Ok (FailStub (negb (forced reqs)) ms er)
         end.
Proof. exact (requires_optional_spec e reqs). Qed.
Print Assumptions C25_requires_optional.
(* The observable behaviour of the decorated function outside the documentation build:
   the original runs iff nothing is missing and no error was supplied; otherwise a call
   reports exactly the missing packages, by skipping in pytest unless forced. *)
Theorem C25_call e reqs d : on_rtd e = false -> requires_optional e reqs = Ok d ->
  (call_decorated e d = RunsOriginal <-> missing_of e reqs = [] /\ errors_of reqs = []) /\
  (missing_of e reqs <> [] ->
     call_decorated e d =
       if negb (forced reqs) && in_pytest e
       then if have_pytest e then Skips (missing_of e reqs) (errors_of reqs) else NoPytest
       else Missing (missing_of e reqs) (errors_of reqs)).
Proof.
  intros R H. rewrite C25_requires_optional, R in H. destruct (existsb bad reqs); [discriminate|].
  destruct (missing_of e reqs) as [|m ms] eqn:Em; destruct (errors_of reqs) as [|x xs] eqn:Ee;
    try discriminate; injection H as <-; cbn [call_decorated].
  - split; [tauto|congruence].
  - destruct (negb (forced reqs) && in_pytest e); [destruct (have_pytest e)|];
      (split; [split; [discriminate|intros [C _]; discriminate]|reflexivity]).
  - destruct (negb (forced reqs) && in_pytest e); [destruct (have_pytest e)|];
      (split; [split; [discriminate|intros [C _]; discriminate]|reflexivity]).
Qed.
Print Assumptions C25_call.
Definition ex25_env : env := {| on_rtd := false; importable := String.eqb "scipy"; in_pytest := true; have_pytest := true |}.
Example C25_example :
  requires_optional ex25_env [RPkg "scipy"; RNone] = Ok Original /\
  requires_optional ex25_env [RPkg "scipy"; RImportError "bad"] = Raise ImportErrorExn /\
  requires_optional ex25_env [RPkg "numba"; RPkg "scipy"; RImportError "bad"]
    = Ok (FailStub true ["numba"%string] ["bad"%string]) /\
  call_decorated ex25_env (FailStub true ["numba"%string] []) = Skips ["numba"%string] [] /\
  call_decorated ex25_env (FailStub false ["numba"%string] []) = Missing ["numba"%string] [].
Proof. repeat split. Qed.

(* ------------------------------------------------------------------ C78 *)
Theorem C78_warp_transpose {A} N (v : arr2 A) : exists v', warp_transpose N v = Ok v' /\
  forall t c, t < N -> c < N -> v' t c = v c t.
Proof. exact (warp_transpose_spec N v). Qed.
Print Assumptions C78_warp_transpose.
Example C78_example : match warp_transpose 3 (of_list2 0 [[1; 2; 3]; [4; 5; 6]; [7; 8; 9]]) with
  | Ok v => map (fun t => to_list 3 (v t)) [0; 1; 2] = [[1; 4; 7]; [2; 5; 8]; [3; 6; 9]] | _ => False end.
Proof. vm_compute. reflexivity. Qed.
