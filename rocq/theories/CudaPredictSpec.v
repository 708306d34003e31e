(* Specification vocabulary for C92 *)
From Coq Require Import Reals.
From Verif Require Import Prelude CRing CplxR PredictModel PredictSpec CudaPredictModel.
Open Scope nat_scope.

(* every warp of the launch runs once, in some order *)
Definition schedule (blockdimy gx gy : nat) (l : list (nat * nat * nat)) : Prop := NoDup l /\ forall w, In w l <-> launched gx gy blockdimy w.
Definition any_schedule (double : bool) (order : nat -> nat -> list (nat * nat * nat)) : Prop :=
  forall gx gy, schedule (if double then 24 else 32) gx gy (order gx gy).
(* time and antenna indices are inside the antenna arrays, which agree on the antennas *)
Definition indices_ok (x : extents) (a : predict_in RC) : Prop :=
  (p_dde1 a <> None -> p_die1 a <> None -> x_dde x = x_die x) /\
  forall tmin r, is_min (p_nrow a) (p_time a) tmin -> r < p_nrow a ->
    let t := Z.to_nat (p_time a r - tmin) in
    (p_dde1 a <> None -> t < fst (x_dde x) /\ p_ant1 a r < snd (x_dde x) /\ p_ant2 a r < snd (x_dde x)) /\
    (p_die1 a <> None -> t < fst (x_die x) /\ p_ant1 a r < snd (x_die x) /\ p_ant2 a r < snd (x_die x)).
(* something other than base visibilities *)
Definition more_than_base (a : predict_in RC) : Prop := p_dde1 a <> None \/ p_coh a <> None \/ p_die1 a <> None.
(* the four correlations of a flat array read as a matrix *)
Definition as_matrix (j : jones RC) : jones RC := fun i k => j (2 * i + k) 0.
Definition as_matrices (a : predict_in RC) : predict_in RC :=
  let dde e := {| d_ndim := S (d_ndim e); d_src := d_src e; d_chan := d_chan e; d_corr := 2; d_at := fun s t p f => as_matrix (d_at e s t p f) |} in
  let die g := {| g_ndim := S (g_ndim g); g_chan := g_chan g; g_corr := 2; g_at := fun t p f => as_matrix (g_at g t p f) |} in
  {| p_nrow := p_nrow a; p_time := p_time a; p_ant1 := p_ant1 a; p_ant2 := p_ant2 a;
     p_dde1 := option_map dde (p_dde1 a);
     p_coh := option_map (fun e => {| h_ndim := S (h_ndim e); h_src := h_src e; h_row := h_row e; h_chan := h_chan e; h_corr := 2;
                                      h_at := fun s r f => as_matrix (h_at e s r f) |}) (p_coh a);
     p_dde2 := option_map dde (p_dde2 a);
     p_die1 := option_map die (p_die1 a);
     p_bvis := option_map (fun e => {| v_ndim := S (v_ndim e); v_row := v_row e; v_chan := v_chan e; v_corr := 2;
                                       v_at := fun r f => as_matrix (v_at e r f) |}) (p_bvis a);
     p_die2 := option_map die (p_die2 a) |}.
(* one such order *)
Definition row_major (double : bool) (gx gy : nat) : list (nat * nat * nat) :=
  list_prod (list_prod (seq 0 gx) (seq 0 gy)) (seq 0 (if double then 24 else 32)).
