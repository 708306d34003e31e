(* Model of /repo/africanus/rime/predict.py *)
From Verif Require Import Prelude CRing.
Open Scope nat_scope.

(* ------------------------------------------------------------------ *)
(* predict.py:349-426 predict_checks.  An argument is represented by its ndim, or None
   when absent. *)
Definition in2 (n a b : nat) : bool := Nat.eqb n a || Nat.eqb n b.
Definition have {A} (x : option A) : bool := match x with Some _ => true | None => false end.
Definition opt_all {A} (x : option A) (f : A -> bool) : bool :=
  match x with Some a => f a | None => true end.
Definition ndim_eq (x y : option nat) : bool :=
  match x, y with Some a, Some b => Nat.eqb a b | _, _ => true end.
Definition flags : Type := (bool * bool * bool * bool * bool * bool)%type.
Definition list4_eqb (x y : nat * nat * nat * nat) : bool :=
  let '(a, b, c, d) := x in let '(e, f, g, h) := y in
  Nat.eqb a e && Nat.eqb b f && Nat.eqb c g && Nat.eqb d h.

(* lines 400-416 *)
Definition expected_sizes (dde1 coh die1 bvis : option nat) (have_ddes have_dies : bool)
  : list (nat * nat * nat * nat) :=
  (if have_ddes then match dde1 with Some n => [(n, n - 1, n - 2, n - 1)] | None => [] end else []) ++
  (match coh with Some n => [(n + 1, n, n - 1, n)] | None => [] end) ++
  (if have_dies then match die1 with Some n => [(n + 1, n, n - 1, n)] | None => [] end else []) ++
  (match bvis with Some n => [(n + 2, n + 1, n, n + 1)] | None => [] end).

Definition predict_checks (time ant1 ant2 : nat) (dde1 coh dde2 die1 bvis die2 : option nat)
  : res flags :=
  if negb (Nat.eqb time 1 && Nat.eqb ant1 1 && Nat.eqb ant2 1) then Raise AssertionError (* 361-363 *)
  else if xorb (have dde1) (have dde2) then Raise ValueError          (* 365 *)
  else if xorb (have die1) (have die2) then Raise ValueError          (* 369 *)
  else if negb (opt_all dde1 (fun n => in2 n 5 6)) then Raise ValueError
  else if negb (opt_all dde2 (fun n => in2 n 5 6)) then Raise ValueError
  else if negb (ndim_eq dde1 dde2) then Raise ValueError
  else if negb (opt_all coh (fun n => in2 n 4 5)) then Raise ValueError
  else if negb (opt_all die1 (fun n => in2 n 4 5)) then Raise ValueError
  else if negb (opt_all bvis (fun n => in2 n 3 4)) then Raise ValueError
  else if negb (opt_all die2 (fun n => in2 n 4 5)) then Raise ValueError
  else if negb (ndim_eq die1 die2) then Raise ValueError
  else match expected_sizes dde1 coh die1 bvis (have dde1 && have dde2) (have die1 && have die2) with
       | [] => Ok (have dde1, have coh, have dde2, have die1, have bvis, have die2)
       | e :: l => if forallb (list4_eqb e) l                          (* 418 *)
                   then Ok (have dde1, have coh, have dde2, have die1, have bvis, have die2)
                   else Raise ValueError
       end.

(* predict.py:15-54 _get_jones_types *)
Inductive jtype : Type := J_NONE | J_1_OR_2 | J_2X2.
Definition jtype_eqb (a b : jtype) : bool :=
  match a, b with
  | J_NONE, J_NONE | J_1_OR_2, J_1_OR_2 | J_2X2, J_2X2 => true
  | _, _ => false
  end.
Definition get_jones_types (ndim : option nat) (corr1 corr2 : nat) : res jtype :=
  match ndim with
  | None => Ok J_NONE
  | Some n => if Nat.eqb n corr1 then Ok J_1_OR_2
              else if Nat.eqb n corr2 then Ok J_2X2 else Raise ValueError
  end.

(* predict.py:449-465.  np.result_type (445-447) of no arrays raises ValueError, which
   comes first; the order does not show because both raise ValueError. *)
Definition jones_type_of (dde1 coh dde2 die1 bvis die2 : option nat) : res jtype :=
  do! t1 <- get_jones_types dde1 5 6;
  do! t2 <- get_jones_types coh 4 5;
  do! t3 <- get_jones_types dde2 5 6;
  do! t4 <- get_jones_types die1 4 5;
  do! t5 <- get_jones_types bvis 3 4;
  do! t6 <- get_jones_types die2 4 5;
  match filter (fun t => negb (jtype_eqb t J_NONE)) [t1; t2; t3; t4; t5; t6] with
  | [] => Raise ValueError
  | p :: l => if forallb (jtype_eqb p) l then Ok p else Raise ValueError
  end.

Section Predict.
  Context {K : cops}.
  Open Scope K_scope.

  (* The trailing correlation dimensions.  (1,) and (2,) shapes keep their element c at
     index (c, 0); (2, 2) shapes use both indices. *)
  Definition jones : Type := arr2 K.

  (* Arrays with their ndim and the extents that the code reads. *)
  Record dde_arr : Type := { d_ndim : nat; d_src : nat; d_chan : nat; d_corr : nat;
                             d_at : nat -> nat -> nat -> nat -> jones }.   (* s, t, a, f *)
  Record coh_arr : Type := { h_ndim : nat; h_src : nat; h_row : nat; h_chan : nat; h_corr : nat;
                             h_at : nat -> nat -> nat -> jones }.          (* s, r, f *)
  Record die_arr : Type := { g_ndim : nat; g_chan : nat; g_corr : nat;
                             g_at : nat -> nat -> nat -> jones }.          (* t, a, f *)
  Record vis_arr : Type := { v_ndim : nat; v_row : nat; v_chan : nat; v_corr : nat;
                             v_at : nat -> nat -> jones }.                 (* r, f *)

  (* out[i, j] += v  or  out[i, j] = v *)
  Definition put (acc : bool) (out : jones) (i j : nat) (v : K) : jones :=
    upd2 out i j (if acc then out i j + v else v).

  (* predict.py:91-121, coherency and antenna terms.  [blj] may be the output itself
     (apply_dies), so it is a view of the current output: (fun out => out). *)
  Definition jones_mul3 (jt : jtype) (acc : bool) (ncorr : nat)
             (a1j : jones) (blj : jones -> jones) (a2j : jones) (out : jones) : jones :=
    match jt with
    | J_2X2 =>
        let bl := blj out in
        let a2_xx := cconj (a2j 0%nat 0%nat) in let a2_xy := cconj (a2j 0%nat 1%nat) in
        let a2_yx := cconj (a2j 1%nat 0%nat) in let a2_yy := cconj (a2j 1%nat 1%nat) in
        let xx := bl 0%nat 0%nat * a2_xx + bl 0%nat 1%nat * a2_xy in
        let xy := bl 0%nat 0%nat * a2_yx + bl 0%nat 1%nat * a2_yy in
        let yx := bl 1%nat 0%nat * a2_xx + bl 1%nat 1%nat * a2_xy in
        let yy := bl 1%nat 0%nat * a2_yx + bl 1%nat 1%nat * a2_yy in
        let o1 := put acc out 0 0 (a1j 0%nat 0%nat * xx + a1j 0%nat 1%nat * yx) in
        let o2 := put acc o1 0 1 (a1j 0%nat 0%nat * xy + a1j 0%nat 1%nat * yy) in
        let o3 := put acc o2 1 0 (a1j 1%nat 0%nat * xx + a1j 1%nat 1%nat * yx) in
        put acc o3 1 1 (a1j 1%nat 0%nat * xy + a1j 1%nat 1%nat * yy)
    | _ => for_ ncorr (fun c o => put acc o c 0 (a1j c 0%nat * (blj o) c 0%nat * cconj (a2j c 0%nat))) out
    end.

  (* predict.py:125-150, antenna terms only (both branches of the 2x2 case accumulate) *)
  Definition jones_mul2 (jt : jtype) (acc : bool) (ncorr : nat)
             (a1j a2j : jones) (out : jones) : jones :=
    match jt with
    | J_2X2 =>
        let a2_xx := cconj (a2j 0%nat 0%nat) in let a2_xy := cconj (a2j 0%nat 1%nat) in
        let a2_yx := cconj (a2j 1%nat 0%nat) in let a2_yy := cconj (a2j 1%nat 1%nat) in
        let o1 := put true out 0 0 (a1j 0%nat 0%nat * a2_xx + a1j 0%nat 1%nat * a2_xy) in
        let o2 := put true o1 0 1 (a1j 0%nat 0%nat * a2_yx + a1j 0%nat 1%nat * a2_yy) in
        let o3 := put true o2 1 0 (a1j 1%nat 0%nat * a2_xx + a1j 1%nat 1%nat * a2_xy) in
        put true o3 1 1 (a1j 1%nat 0%nat * a2_yx + a1j 1%nat 1%nat * a2_yy)
    | _ => for_ ncorr (fun c o => put acc o c 0 (a1j c 0%nat * cconj (a2j c 0%nat))) out
    end.
  (* predict.py:153-179 (coherency only) is never called: sum_coherencies has its own
     loops for that case and apply_dies is a no-op without die terms. *)

  Record predict_in : Type := {
    p_nrow : nat; p_time : arr Z; p_ant1 : arr nat; p_ant2 : arr nat;
    p_dde1 : option dde_arr; p_coh : option coh_arr; p_dde2 : option dde_arr;
    p_die1 : option die_arr; p_bvis : option vis_arr; p_die2 : option die_arr
  }.

  Definition outbuf : Type := nat -> nat -> jones.
  (* jones_mul(..., out[r, f]) *)
  Definition at_rf (out : outbuf) (r f : nat) (g : jones -> jones) : outbuf :=
    upd2 out r f (g (out r f)).

  (* predict.py:188-240 sum_coherencies_factory *)
  Definition sum_coherencies (jt : jtype) (ncorr : nat) (nrow : nat) (time : arr Z)
             (ant1 ant2 : arr nat) (dde1 : option dde_arr) (coh : option coh_arr)
             (dde2 : option dde_arr) (tmin : Z) (out : outbuf) : outbuf :=
    match dde1, coh, dde2 with
    | Some e1, Some x, Some e2 =>
        for_ (d_src e1) (fun s => for_ nrow (fun r =>
          let ti := Z.to_nat (time r - tmin) in
          for_ (d_chan e1) (fun f o =>
            at_rf o r f (jones_mul3 jt true ncorr (d_at e1 s ti (ant1 r) f)
                                    (fun _ => h_at x s r f) (d_at e2 s ti (ant2 r) f))))) out
    | Some e1, None, Some e2 =>
        for_ (d_src e1) (fun s => for_ nrow (fun r =>
          let ti := Z.to_nat (time r - tmin) in
          for_ (d_chan e1) (fun f o =>
            at_rf o r f (jones_mul2 jt true ncorr (d_at e1 s ti (ant1 r) f) (d_at e2 s ti (ant2 r) f))))) out
    | None, Some x, None =>
        for_ (h_src x) (fun s => for_ (h_row x) (fun r => for_ (h_chan x) (fun f o =>
          at_rf o r f (fun j =>
            match jt with
            | J_2X2 => for_ 2 (fun c1 => for_ 2 (fun c2 j =>
                         put true j c1 c2 (h_at x s r f c1 c2))) j
            | _ => for_ (h_corr x) (fun c j => put true j c 0 (h_at x s r f c 0%nat)) j
            end)))) out
    | _, _, _ => out
    end.

  (* predict.py:243-281 output_factory: the shape of the output, all zeros *)
  Definition output_shape (a : predict_in) : res (nat * nat * nat) :=
    match p_dde1 a, p_dde2 a with
    | Some e, Some _ => Ok (p_nrow a, d_chan e, d_corr e)
    | _, _ =>
        match p_coh a with
        | Some x => Ok (p_nrow a, h_chan x, h_corr x)
        | None =>
            match p_die1 a, p_die2 a with
            | Some g, Some _ => Ok (p_nrow a, g_chan g, g_corr g)
            | _, _ => match p_bvis a with
                      | Some b => Ok (p_nrow a, v_chan b, v_corr b)
                      | None => Raise ValueError
                      end
            end
        end
    end.

  (* predict.py:284-293 add_coh: whole-array addition.  Broadcasting is not modelled: the
     two arrays are taken to have the same shape. *)
  Definition add_coh (bvis : option vis_arr) (out : outbuf) : outbuf :=
    match bvis with
    | Some b => fun r f c1 c2 => out r f c1 c2 + v_at b r f c1 c2
    | None => out
    end.

  (* predict.py:296-342 apply_dies_factory *)
  Definition apply_dies (jt : jtype) (ncorr nchan nrow : nat) (time : arr Z) (ant1 ant2 : arr nat)
             (die1 die2 : option die_arr) (tmin : Z) (out : outbuf) : outbuf :=
    match die1, die2 with
    | Some g1, Some g2 =>
        for_ nrow (fun r =>
          let ti := Z.to_nat (time r - tmin) in
          for_ nchan (fun f o =>
            at_rf o r f (jones_mul3 jt false ncorr (g_at g1 ti (ant1 r) f) (fun out => out)
                                    (g_at g2 ti (ant2 r) f)))) out
    | _, _ => out
    end.

  (* time_index.min() of n > 0 elements *)
  Definition zmin (n : nat) (f : arr Z) : Z := for_ (n - 1) (fun i m => Z.min m (f (S i))) (f 0%nat).

  (* predict.py:429-503 predict_vis.  The exceptions of predict_checks are those raised by
     the function that generates the implementation. *)
  Definition predict_vis (a : predict_in) : res vis_arr :=
    let nd1 := option_map d_ndim (p_dde1 a) in let ndx := option_map h_ndim (p_coh a) in
    let nd2 := option_map d_ndim (p_dde2 a) in let ng1 := option_map g_ndim (p_die1 a) in
    let nb := option_map v_ndim (p_bvis a) in let ng2 := option_map g_ndim (p_die2 a) in
    do! _ <- predict_checks 1 1 1 nd1 ndx nd2 ng1 nb ng2;
    do! jt <- jones_type_of nd1 ndx nd2 ng1 nb ng2;
    do! (row, chan, corr) <- output_shape a;
    if Nat.eqb (p_nrow a) 0 then Raise ValueError                  (* min of an empty array *)
    else
      let tmin := zmin (p_nrow a) (p_time a) in
      let out0 : outbuf := fun _ _ _ _ => 0 in
      let out1 := sum_coherencies jt corr (p_nrow a) (p_time a) (p_ant1 a) (p_ant2 a)
                                  (p_dde1 a) (p_coh a) (p_dde2 a) tmin out0 in
      let out2 := add_coh (p_bvis a) out1 in
      let out3 := apply_dies jt corr chan (p_nrow a) (p_time a) (p_ant1 a) (p_ant2 a)
                             (p_die1 a) (p_die2 a) tmin out2 in
      Ok {| v_ndim := match jt with J_2X2 => 4 | _ => 3 end; v_row := row; v_chan := chan;
            v_corr := corr; v_at := out3 |}.

  (* predict.py:506-517 apply_gains *)
  Definition apply_gains (nrow : nat) (time : arr Z) (ant1 ant2 : arr nat)
             (die1 : option die_arr) (corrupted : option vis_arr) (die2 : option die_arr) : res vis_arr :=
    predict_vis {| p_nrow := nrow; p_time := time; p_ant1 := ant1; p_ant2 := ant2;
                   p_dde1 := None; p_coh := None; p_dde2 := None;
                   p_die1 := die1; p_bvis := corrupted; p_die2 := die2 |}.
End Predict.
Arguments dde_arr : clear implicits.
Arguments coh_arr : clear implicits.
Arguments die_arr : clear implicits.
Arguments vis_arr : clear implicits.
Arguments predict_in : clear implicits.
Arguments jones : clear implicits.
