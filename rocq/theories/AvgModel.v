(* Model of /repo/africanus/averaging/support.py and
   /repo/africanus/averaging/time_and_channel_mapping.py *)
From Verif Require Import Prelude NumpyModel.

(* Floating point arithmetic used by the row mapper, kept abstract: the
   operations only, no laws.  [half] is  x * 0.5,  [divn x k] is  x / k  for an
   integer count,  [sentinel] is np.finfo(dtype).max. *)
Record arith : Type := {
  num : Type;
  zero : num;
  add : num -> num -> num;
  sub : num -> num -> num;
  half : num -> num;
  divn : num -> nat -> num;
  ltb : num -> num -> bool;
  neqb : num -> num -> bool;
  sentinel : num
}.

(* ------------------------------------------------------------------ *)
(* /repo/africanus/averaging/support.py:10-53  _unique_internal         *)

Section Unique.
  Context {A : Type} (ltA : A -> A -> bool) (neqA : A -> A -> bool).

  (* Lines 39-50: the loop over perm[1:].  The arguments are the remaining
     permutation, the loop index i, aux[i-1], cumsum and inv_idx so far; the
     result is (mask[i:], inv_idx, counts[...:]) where the entries appended to
     the Python list [counts] (line 48 and line 50) are returned in order.
     [data] is read at the permuted positions (line 41). *)
  Fixpoint unique_loop (data : arr A) (perm : list nat) (i : nat) (prev : A)
           (cumsum : nat) (inv_idx : arr nat) : list bool * arr nat * list nat :=
    match perm with
    | [] => ([], inv_idx, [i])
    | p :: rest =>
        let a := data p in
        let d := neqA a prev in
        let cumsum' := if d then S cumsum else cumsum in
        let inv' := upd inv_idx p (cumsum' - 1) in
        let '(mask, inv_idx'', counts) := unique_loop data rest (S i) a cumsum' inv' in
        (d :: mask, inv_idx'', if d then i :: counts else counts)
    end.

  (* (uniques, indices, inverse index, counts); the inverse index is an array of
     extent n.  The ndim check on line 12 cannot fail for the 1-D [arr]. *)
  Definition unique_internal (n : nat) (data : arr A)
    : list A * list nat * arr nat * list nat :=
    match argsort ltA n data with
    | [] => ([], [], (fun _ => 0), [])             (* lines 17-21 *)
    | p :: rest =>
        let '(mask, inv_idx, counts) :=
          unique_loop data rest 1 (data p) 1 (upd (fun _ => 0) p 0) in
        (select (true :: mask) (map data (p :: rest)),
         select (true :: mask) (p :: rest),
         inv_idx,
         diff (0 :: counts))
    end.
End Unique.

(* support.py:68-97 unique_baselines: the (ant1, ant2) int32 pair is viewed as
   one little-endian int64, i.e. ant2 is the signed high word and ant1 the
   unsigned low word. *)
Definition bl_key (a1 a2 : Z) : Z := (a2 * 2 ^ 32 + a1 mod 2 ^ 32)%Z.

(* Viewing the int64 back as two int32 (support.py:93). *)
Definition to_int32 (w : Z) : Z := if (w <? 2 ^ 31)%Z then w else (w - 2 ^ 32)%Z.
Definition bl_unkey (k : Z) : Z * Z := (to_int32 (k mod 2 ^ 32), (k / 2 ^ 32)%Z).

Definition zneqb (a b : Z) : bool := negb (Z.eqb a b).

Definition unique_baselines (n : nat) (ant1 ant2 : arr Z)
  : list (Z * Z) * list nat * arr nat * list nat :=
  let '(ret, idx, inv, counts) :=
    unique_internal Z.ltb zneqb n (fun r => bl_key (ant1 r) (ant2 r)) in
  (map bl_unkey ret, idx, inv, counts).

(* ------------------------------------------------------------------ *)
(* /repo/africanus/averaging/time_and_channel_mapping.py:59-335         *)

Section RowMapper.
  Context (F : arith).
  Notation T := (num F).

  (* Lines 17-25 is_flagged_factory: [None] is an absent flag_row. *)
  Definition is_flagged (flag_row : option (arr Z)) (r : nat) : bool :=
    match flag_row with
    | Some fr => negb (Z.eqb (fr r) 0)
    | None => false
    end.

  (* Lines 208-222: row_lookup[bl, t], None standing for -1. *)
  Definition row_lookup_loop (n : nat) (bl_inv time_inv : arr nat)
    : res (arr2 (option nat)) :=
    forM n (fun r rl =>
              match rl (bl_inv r) (time_inv r) with
              | None => Ok (upd2 rl (bl_inv r) (time_inv r) (Some r))
              | Some _ => Raise ValueError
              end)
         (fun _ _ => None).

  (* The locals of the baseline loop, lines 226-283, plus the 2-D arrays. *)
  Record mstate : Type := {
    tbin : nat;
    bin_count : nat;
    bin_flag_count : nat;
    bin_low : T;
    bin_lookup : arr2 (option nat);   (* None is -1 *)
    time_lookup : arr2 T;
    interval_lookup : arr2 T;
    bin_flagged : arr2 bool
  }.

  (* Lines 232-278, one iteration of the time loop. *)
  Definition time_step (time interval : arr T) (flag_row : option (arr Z))
             (secs : T) (row_lookup : arr2 (option nat)) (bl t : nat)
             (s : mstate) : mstate :=
    match row_lookup bl t with
    | None => s                                               (* line 237 *)
    | Some r =>
        let half_int := half F (interval r) in                (* line 244 *)
        (* lines 246-265 *)
        let s1 :=
          if Nat.eqb (bin_count s) 0 then
            {| tbin := tbin s; bin_count := bin_count s;
               bin_flag_count := bin_flag_count s;
               bin_low := sub F (time r) half_int;
               bin_lookup := bin_lookup s; time_lookup := time_lookup s;
               interval_lookup := interval_lookup s;
               bin_flagged := bin_flagged s |}
          else if ltb F secs (sub F (add F (time r) half_int) (bin_low s)) then
            let tl := if Nat.ltb 0 (bin_count s) then
                        upd2 (time_lookup s) bl (tbin s)
                             (divn F (time_lookup s bl (tbin s)) (bin_count s))
                      else upd2 (time_lookup s) bl (tbin s) (sentinel F) in
            let bf := if Nat.ltb 0 (bin_count s) then
                        upd2 (bin_flagged s) bl (tbin s)
                             (Nat.eqb (bin_count s) (bin_flag_count s))
                      else upd2 (bin_flagged s) bl (tbin s) false in
            {| tbin := S (tbin s); bin_count := 0; bin_flag_count := 0;
               bin_low := bin_low s;
               bin_lookup := bin_lookup s; time_lookup := tl;
               interval_lookup := interval_lookup s; bin_flagged := bf |}
          else s in
        (* lines 267-278 *)
        {| tbin := tbin s1; bin_count := S (bin_count s1);
           bin_flag_count := if is_flagged flag_row r
                             then S (bin_flag_count s1) else bin_flag_count s1;
           bin_low := bin_low s1;
           bin_lookup := upd2 (bin_lookup s1) bl t (Some (tbin s1));
           time_lookup := upd2 (time_lookup s1) bl (tbin s1)
                               (add F (time_lookup s1 bl (tbin s1)) (time r));
           interval_lookup := upd2 (interval_lookup s1) bl (tbin s1)
                               (add F (interval_lookup s1 bl (tbin s1)) (interval r));
           bin_flagged := bin_flagged s1 |}
    end.

  (* Lines 289-292: for b in range(tbin, ntime) *)
  Definition fill_sentinel (ntime bl tb : nat) (s : arr2 T * arr2 bool)
    : arr2 T * arr2 bool :=
    for_ (ntime - tb)
         (fun k s => (upd2 (fst s) bl (tb + k) (sentinel F),
                      upd2 (snd s) bl (tb + k) false)) s.

  (* What survives from one baseline to the next. *)
  Record acc : Type := {
    a_out_rows : nat;
    a_bin_lookup : arr2 (option nat);
    a_time : arr2 T;
    a_int : arr2 T;
    a_flagged : arr2 bool
  }.

  (* Lines 226-292, one iteration of the baseline loop. *)
  Definition bl_step (time interval : arr T) (flag_row : option (arr Z))
             (secs : T) (ntime : nat) (row_lookup : arr2 (option nat))
             (bl : nat) (a : acc) : acc :=
    let s0 := {| tbin := 0; bin_count := 0; bin_flag_count := 0;
                 bin_low := zero F;
                 bin_lookup := a_bin_lookup a; time_lookup := a_time a;
                 interval_lookup := a_int a; bin_flagged := a_flagged a |} in
    let s := for_ ntime (time_step time interval flag_row secs row_lookup bl) s0 in
    (* lines 280-284 *)
    let '(tb, tl, bf) :=
      if Nat.ltb 0 (bin_count s) then
        (S (tbin s),
         upd2 (time_lookup s) bl (tbin s)
              (divn F (time_lookup s bl (tbin s)) (bin_count s)),
         upd2 (bin_flagged s) bl (tbin s) (Nat.eqb (bin_count s) (bin_flag_count s)))
      else (tbin s, time_lookup s, bin_flagged s) in
    let '(tl', bf') := fill_sentinel ntime bl tb (tl, bf) in
    {| a_out_rows := a_out_rows a + tb;                       (* line 287 *)
       a_bin_lookup := bin_lookup s; a_time := tl';
       a_int := interval_lookup s; a_flagged := bf' |}.

  (* Lines 299-301: inv_argsort, None standing for the initial -1. *)
  Fixpoint inv_argsort_loop (l : list nat) (i : nat) (inv : arr (option nat))
    : arr (option nat) :=
    match l with
    | [] => inv
    | a :: r => inv_argsort_loop r (S i) (upd inv a (Some i))
    end.

  (* RowMapOutput: map, time, interval (extent rm_out_rows) and flag_row. *)
  Record row_map_output : Type := {
    rm_out_rows : nat;
    rm_map : arr nat;
    rm_time : arr T;
    rm_interval : arr T;
    rm_flag_row : option (arr Z)
  }.

  (* Lines 309-328, one iteration of the final row loop.  An index of -1
     (which the code would use as a negative index) is modelled as IndexError. *)
  Definition map_step (flag_row : option (arr Z)) (ntime out_rows : nat)
             (bl_inv time_inv : arr nat) (bin_lookup : arr2 (option nat))
             (bin_flagged : arr2 bool) (inv_argsort : arr (option nat))
             (in_row : nat) (s : arr nat * option (arr Z))
    : res (arr nat * option (arr Z)) :=
    let bl := bl_inv in_row in
    let t := time_inv in_row in
    match bin_lookup bl t with
    | None => Raise IndexError
    | Some tb =>
        match inv_argsort (bl * ntime + tb) with
        | None => Raise IndexError
        | Some out_row =>
            if Nat.leb out_rows out_row then Raise RowMapperError  (* line 320 *)
            else
              (* lines 39-52 and 324-326 set_flag_row *)
              do! of <- match flag_row, snd s with
                        | Some fr, Some ofr =>
                            if Z.eqb (fr in_row) 0 && bin_flagged bl tb
                            then Raise RowMapperError
                            else Ok (Some (upd ofr out_row
                                               (if bin_flagged bl tb then 1 else 0)%Z))
                        | _, o => Ok o
                        end;
              Ok (upd (fst s) in_row out_row, of)
        end
    end.

  (* Lines 187-333. *)
  Definition row_mapper (n : nat) (time interval : arr T) (ant1 ant2 : arr Z)
             (flag_row : option (arr Z)) (secs : T) : res row_map_output :=
    let '(ubl, _, bl_inv, _) := unique_baselines n ant1 ant2 in
    let '(utime, _, time_inv, _) := unique_internal (ltb F) (neqb F) n time in
    let nbl := length ubl in
    let ntime := length utime in
    do! row_lookup <- row_lookup_loop n bl_inv time_inv;
    let a := for_ nbl (bl_step time interval flag_row secs ntime row_lookup)
                  {| a_out_rows := 0; a_bin_lookup := fun _ _ => None;
                     a_time := fun _ _ => zero F; a_int := fun _ _ => zero F;
                     a_flagged := fun _ _ => false |} in
    let flat_time := fun k => a_time a (k / ntime) (k mod ntime) in
    let flat_int := fun k => a_int a (k / ntime) (k mod ntime) in
    let argsort := argsort (ltb F) (nbl * ntime) flat_time in
    let inv_argsort := inv_argsort_loop argsort 0 (fun _ => None) in
    let out_rows := a_out_rows a in
    do! s <- forM n (map_step flag_row ntime out_rows bl_inv time_inv
                              (a_bin_lookup a) (a_flagged a) inv_argsort)
                  ((fun _ => 0),
                   match flag_row with Some _ => Some (fun _ => 0%Z) | None => None end);
    Ok {| rm_out_rows := out_rows;
          rm_map := fst s;
          rm_time := fun k => flat_time (nth k argsort 0);
          rm_interval := fun k => flat_int (nth k argsort 0);
          rm_flag_row := snd s |}.
End RowMapper.

(* ------------------------------------------------------------------ *)
(* /repo/africanus/averaging/time_and_channel_mapping.py:338-356        *)

(* One iteration of the loop on lines 345-351; the state is
   (chan_map, chan_bin, bin_count). *)
Definition chan_step (bin_size c : nat) (s : arr nat * nat * nat) : arr nat * nat * nat :=
  let '(m, chan_bin, bin_count) := s in
  let m' := upd m c chan_bin in
  let bin_count' := S bin_count in
  if Nat.eqb bin_count' bin_size then (m', S chan_bin, 0) else (m', chan_bin, bin_count').

Definition channel_mapper (nchan bin_size : nat) : arr nat * nat :=
  let '(m, chan_bin, bin_count) := for_ nchan (chan_step bin_size) ((fun _ => 0), 0, 0) in
  (m, if Nat.ltb 0 bin_count then S chan_bin else chan_bin).
