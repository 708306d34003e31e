(* Model of /repo/africanus/util/dask_util.py.  Times are exact rationals.  Writing the message to the terminal is not
   modelled (a ValueError raised by it is ignored by the code). *)
From Coq Require Import String Ascii DecimalString QArith QArith.Qcanon Qround.
From Verif Require Import Prelude QcArith.
Close Scope string_scope. Close Scope Q_scope. Close Scope Qc_scope.
Open Scope nat_scope.

Definition q_of (z : Z) : Qc := Q2Qc (inject_Z z).
Definition qfloor (x : Qc) : Z := Qfloor x.

(* ---------- text ---------- *)
Definition repeat_char (c : ascii) (n : nat) : string := Nat.iter n (String c) EmptyString.
(* {:w.0f}: rounded to the nearest integer, halves to even, padded with blanks on the left *)
Definition round_even (x : Qc) : Z :=
  let f := qfloor x in
  match (x - q_of f ?= Q2Qc (1 # 2))%Qc with
  | Lt => f
  | Gt => (f + 1)%Z
  | Eq => if Z.even f then f else (f + 1)%Z
  end.
Definition int_text (z : Z) : string := NilEmpty.string_of_int (Z.to_int z).
Definition pad_left (w : nat) (s : string) : string := (repeat_char " " (w - String.length s) ++ s)%string.
Definition fmt (w : nat) (x : Qc) : string := pad_left w (int_text (round_even x)).

(* divmod(t, k) for an integer k > 0 *)
Definition divmod (t : Qc) (k : Z) : Z * Qc :=
  let d := qfloor (t / q_of k) in (d, (t - q_of (k * d))%Qc).

(* dask_util.py:23-39 format_time *)
Definition format_time (t : Qc) : string :=
  let '(m, s) := divmod t 60 in
  let h := (m / 60)%Z in let m := (m mod 60)%Z in
  let d := (h / 24)%Z in let h := (h mod 24)%Z in
  let w := (d / 7)%Z in let d := (d mod 7)%Z in
  if negb (Z.eqb w 0) then (fmt 2 (q_of w) ++ "w" ++ fmt 2 (q_of d) ++ "d")%string
  else if negb (Z.eqb d 0) then (fmt 2 (q_of d) ++ "d" ++ fmt 2 (q_of h) ++ "h")%string
  else if negb (Z.eqb h 0) then (fmt 2 (q_of h) ++ "h" ++ fmt 2 (q_of m) ++ "m")%string
  else if negb (Z.eqb m 0) then (fmt 2 (q_of m) ++ "m" ++ fmt 2 s ++ "s")%string
  else (fmt 5 s ++ "s")%string.

(* ---------- tasks ---------- *)
(* A task key: a tuple, bytes with the result of decoding them, or anything else with the result of str *)
Inductive pykey : Type :=
| KTuple (items : list pykey) (text : string)
| KBytes (decoded : option string)
| KOther (text : option string).
(* dask_util.py:42-53 key_bin.  str of a tuple or a string does not fail; a failing decode is a UnicodeDecodeError *)
Definition key_bin (k : pykey) : res string :=
  do! k <- match k with KTuple [] _ => Raise IndexError | KTuple (k :: _) _ => Ok k | k => Ok k end;
  match k with
  | KBytes (Some s) => Ok s
  | KBytes None => Raise ValueError
  | KTuple _ s => Ok s
  | KOther (Some s) => Ok s
  | KOther None => Ok "other"%string
  end.

(* dask_util.py:56-82 TaskData *)
Record task_data : Type := { completed : nat; total : nat; time_sum : Qc }.
Definition no_data : task_data := {| completed := 0; total := 0; time_sum := 0%Qc |}.
Definition data_add (a b : task_data) : task_data :=
  {| completed := completed a + completed b; total := total a + total b; time_sum := (time_sum a + time_sum b)%Qc |}.

(* a defaultdict(TaskData): entries in the order in which they were made; [ddupdate] is reading an entry, which makes it
   when missing, and changing it *)
Definition ddict : Type := list (string * task_data).
Fixpoint ddupdate (d : ddict) (k : string) (f : task_data -> task_data) : ddict :=
  match d with
  | [] => [(k, f no_data)]
  | (k', v) :: d => if String.eqb k k' then (k', f v) :: d else (k', v) :: ddupdate d k f
  end.

Section Bar.
  (* keys with decidable equality *)
  Context (key : Type) (key_eqb : key -> key -> bool) (bin_of : key -> res string).

  Record bar : Type := { data : ddict; started : list (key * Qc); running : bool }.

  (* dask_util.py:192-205 _start, for the keys of the graph (the timer thread is started last) *)
  Definition start (dsk : list key) : res bar :=
    do! d <- fold_left (fun (d : res ddict) k =>
               do! d <- d; do! b <- bin_of k;
               Ok (ddupdate d b (fun v => {| completed := completed v; total := total v + 1; time_sum := time_sum v |})))
             dsk (Ok []);
    Ok {| data := d; started := []; running := true |}.

  (* dask_util.py:207-210 _finish *)
  Definition finish (b : bar) : bar := {| data := []; started := []; running := false |}.

  (* dask_util.py:212-214 _pretask at time [now]: a dictionary assignment *)
  Fixpoint assign (l : list (key * Qc)) (k : key) (t : Qc) : list (key * Qc) :=
    match l with
    | [] => [(k, t)]
    | (k', t') :: l => if key_eqb k k' then (k', t) :: l else (k', t') :: assign l k t
    end.
  Definition pretask (k : key) (now : Qc) (b : bar) : bar :=
    {| data := data b; started := assign (started b) k now; running := running b |}.

  (* dask_util.py:216-220 _posttask at time [now] *)
  Fixpoint pop (l : list (key * Qc)) (k : key) : option (Qc * list (key * Qc)) :=
    match l with
    | [] => None
    | (k', t) :: l => if key_eqb k k' then Some (t, l)
                      else match pop l k with Some (t', l') => Some (t', (k', t) :: l') | None => None end
    end.
  Definition posttask (k : key) (now : Qc) (b : bar) : res bar :=
    do! bn <- bin_of k;
    match pop (started b) k with
    | None => Raise KeyError
    | Some (t, rest) =>
        Ok {| data := ddupdate (data b) bn (fun v => {| completed := completed v + 1; total := total v; time_sum := (time_sum v + (now - t))%Qc |});
              started := rest; running := running b |}
    end.

  (* what the scheduler tells the bar *)
  Inductive event : Type := Pre (k : key) (now : Qc) | Post (k : key) (now : Qc).
  Definition handle (b : bar) (e : event) : res bar :=
    match e with Pre k now => Ok (pretask k now b) | Post k now => posttask k now b end.
  Fixpoint handle_all (b : bar) (es : list event) : res bar :=
    match es with [] => Ok b | e :: es => do! b <- handle b e; handle_all b es end.
End Bar.
Arguments data {key}. Arguments started {key}. Arguments running {key}. Arguments Pre {key}. Arguments Post {key}.

(* ---------- display ---------- *)
(* dask_util.py:86-101: the sums over the bins *)
Record sums : Type := { s_total : nat; s_completed : nat; s_estimated : Qc; s_guess : Qc }.
Definition no_sums : sums := {| s_total := 0; s_completed := 0; s_estimated := 0%Qc; s_guess := 0%Qc |}.
Definition add_bin (s : sums) (v : task_data) : sums :=
  let worked := Nat.ltb 0 (completed v) in
  {| s_total := s_total s + total v; s_completed := s_completed s + completed v;
     s_estimated := if worked then (s_estimated s + time_sum v / Qc_of_nat (completed v) * Qc_of_nat (total v))%Qc else s_estimated s;
     s_guess := if worked then (s_guess s + time_sum v)%Qc else s_guess s |}.
Definition all_bins (d : ddict) : sums := fold_left (fun s kv => add_bin s (snd kv)) d no_sums.

Record display : Type := { d_bar : string; d_percent : Z; d_elapsed : string; d_estimate : string }.

(* {0:{1}.{1}} of a string: cut or padded to the width *)
Definition field (w : nat) (s : string) : string :=
  let s := String.substring 0 w s in (s ++ repeat_char " " (w - String.length s))%string.

(* dask_util.py:103-137: the text and the returned estimate *)
Definition show (elapsed : Qc) (prev_completed : nat) (prev_estimated : Qc) (width : nat) (s : sums) : res (Qc * display) :=
  do! estimated <-
    (if negb (Nat.eqb (s_completed s) prev_completed)
     then if Qc_eq_bool (s_guess s) 0%Qc then Raise ZeroDivision else Ok (s_estimated s * elapsed / s_guess s)%Qc
     else Ok prev_estimated);
  let early := Qc_ltb elapsed (q_of 10) in
  let fraction := if early then 0%Qc else if Qc_ltb 0%Qc estimated then (elapsed / estimated)%Qc else 0%Qc in
  let bar := if early then " estimate improves over time"%string
             else repeat_char "#" (Z.to_nat (qfloor (Qc_of_nat width * fraction)%Qc)) in
  Ok (estimated, {| d_bar := field width bar; d_percent := qfloor (q_of 100 * fraction)%Qc; d_elapsed := format_time elapsed;
                    d_estimate := if Qc_eq_bool estimated 0%Qc then "???"%string else format_time estimated |}).

(* dask_util.py:85-137 update_bar while nothing else happens *)
Definition update_bar (elapsed : Qc) (prev_completed : nat) (prev_estimated : Qc) (width : nat) (d : ddict) : res (nat * Qc * display) :=
  let s := all_bins d in
  do! (e, msg) <- show elapsed prev_completed prev_estimated width s;
  Ok (s_completed s, e, msg).

(* dask_util.py:144-153, one turn of timer_func: the previous values are set anew in every turn *)
Definition turn (elapsed : Qc) (width : nat) (d : ddict) : res (nat * Qc * display) := update_bar elapsed 0 0%Qc width d.

(* ---------- threads ---------- *)
(* The timer thread walks over the bins holding the lock; each turn of that loop is one step.  Callbacks take the lock for
   their whole body, except _finish, which takes none.  A dictionary whose size changed during a walk raises RuntimeError
   when the next item is asked for. *)
Inductive timer : Type :=
| Asleep
| Awake                                    (* has seen pb.running set *)
| Walking (size pos : nat) (acc : sums)   (* holding the lock *)
| Shown (acc : sums)                       (* the sums of the last walk *)
| Died (e : exn)
| Stopped.

Section Threads.
  Context (key : Type) (key_eqb : key -> key -> bool) (bin_of : key -> res string).
  Record world : Type := { w_bar : bar key; w_timer : timer; w_finished : bool }.

  Definition locked (t : timer) : Prop := match t with Walking _ _ _ => True | _ => False end.

  Inductive step : world -> world -> Prop :=
  | SCallback b t f e b' : ~ locked t -> f = false -> handle key key_eqb bin_of b e = Ok b' ->
      step {| w_bar := b; w_timer := t; w_finished := f |} {| w_bar := b'; w_timer := t; w_finished := f |}
  | SFinish b t f : step {| w_bar := b; w_timer := t; w_finished := f |} {| w_bar := finish key b; w_timer := t; w_finished := true |}
  (* pb.running.is_set() *)
  | SWake b t f : (t = Asleep \/ exists s, t = Shown s) -> running b = true ->
      step {| w_bar := b; w_timer := t; w_finished := f |}
           {| w_bar := b; w_timer := Awake; w_finished := f |}
  (* elapsed > pb._minimum is false *)
  | SEarly b f : step {| w_bar := b; w_timer := Awake; w_finished := f |} {| w_bar := b; w_timer := Asleep; w_finished := f |}
  (* the lock, and the iterator over the bins *)
  | SLock b f :
      step {| w_bar := b; w_timer := Awake; w_finished := f |}
           {| w_bar := b; w_timer := Walking (length (data b)) 0 no_sums; w_finished := f |}
  | SStop b t f : (t = Asleep \/ exists s, t = Shown s) -> running b = false ->
      step {| w_bar := b; w_timer := t; w_finished := f |} {| w_bar := b; w_timer := Stopped; w_finished := f |}
  | SChanged b size pos acc f : length (data b) <> size ->
      step {| w_bar := b; w_timer := Walking size pos acc; w_finished := f |}
           {| w_bar := b; w_timer := Died RuntimeError; w_finished := f |}
  | SNext b size pos acc f kv : length (data b) = size -> nth_error (data b) pos = Some kv ->
      step {| w_bar := b; w_timer := Walking size pos acc; w_finished := f |}
           {| w_bar := b; w_timer := Walking size (S pos) (add_bin acc (snd kv)); w_finished := f |}
  (* the end of the walk, and the text at some elapsed time *)
  | SEnd b size pos acc f elapsed width r : length (data b) = size -> nth_error (data b) pos = None ->
      show elapsed 0 0%Qc width acc = Ok r ->
      step {| w_bar := b; w_timer := Walking size pos acc; w_finished := f |}
           {| w_bar := b; w_timer := Shown acc; w_finished := f |}
  | SFail b size pos acc f elapsed width e : length (data b) = size -> nth_error (data b) pos = None ->
      show elapsed 0 0%Qc width acc = Raise e ->
      step {| w_bar := b; w_timer := Walking size pos acc; w_finished := f |}
           {| w_bar := b; w_timer := Died e; w_finished := f |}.

  Inductive steps : world -> world -> Prop :=
  | steps_refl w : steps w w
  | steps_step w1 w2 w3 : steps w1 w2 -> step w2 w3 -> steps w1 w3.

  (* after _start *)
  Definition initial (dsk : list key) (w : world) : Prop :=
    exists b, start key bin_of dsk = Ok b /\ w = {| w_bar := b; w_timer := Asleep; w_finished := false |}.
End Threads.
