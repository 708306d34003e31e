(* Complex arithmetic that rounds, as the processor does it, for the models that are written over abstract arithmetic. *)
From Coq Require Import Reals.
From Flocq Require Import Core.
From Verif Require Import Prelude CRing CplxR PredictModel.
Open Scope R_scope.

(* Numba's complex numbers are pairs of floating point numbers; fl is the rounding of one operation.  A product is
   (ac - bd, ad + bc) with every operation rounded, nothing contracted: /repo/africanus/rime/predict.py:91-179 are compiled
   without fastmath.  Negation and conjugation are exact. *)
Definition rounded (fl : R -> R) : cops := {|
  car := (R * R)%type; c0 := (0, 0); c1 := (1, 0);
  cadd := fun x y => (fl (fst x + fst y), fl (snd x + snd y));
  cmul := fun x y => (fl (fl (fst x * fst y) - fl (snd x * snd y)), fl (fl (fst x * snd y) + fl (snd x * fst y)));
  csub := fun x y => (fl (fst x - fst y), fl (snd x - snd y));
  copp := fun x => (- fst x, - snd x);
  cconj := fun x => (fst x, - snd x) |}.

(* Rounding to nearest, ties to even, with p bits: 53 for complex128, 24 for complex64.  The exponent is not bounded: neither
   overflow nor underflow. *)
Definition nearest (p : Z) (x : R) : R := round radix2 (FLX_exp p) ZnearestE x.

(* the same arguments with other numbers in their place *)
Section Values.
  Context {K K' : cops} (f : K -> K').
  Definition map_dde (e : dde_arr K) : dde_arr K' :=
    {| d_ndim := d_ndim e; d_src := d_src e; d_chan := d_chan e; d_corr := d_corr e; d_at := fun s t a c i j => f (d_at e s t a c i j) |}.
  Definition map_coh (e : coh_arr K) : coh_arr K' :=
    {| h_ndim := h_ndim e; h_src := h_src e; h_row := h_row e; h_chan := h_chan e; h_corr := h_corr e; h_at := fun s r c i j => f (h_at e s r c i j) |}.
  Definition map_die (e : die_arr K) : die_arr K' :=
    {| g_ndim := g_ndim e; g_chan := g_chan e; g_corr := g_corr e; g_at := fun t a c i j => f (g_at e t a c i j) |}.
  Definition map_vis (e : vis_arr K) : vis_arr K' :=
    {| v_ndim := v_ndim e; v_row := v_row e; v_chan := v_chan e; v_corr := v_corr e; v_at := fun r c i j => f (v_at e r c i j) |}.
  Definition map_in (a : predict_in K) : predict_in K' :=
    {| p_nrow := p_nrow a; p_time := p_time a; p_ant1 := p_ant1 a; p_ant2 := p_ant2 a;
       p_dde1 := option_map map_dde (p_dde1 a); p_coh := option_map map_coh (p_coh a); p_dde2 := option_map map_dde (p_dde2 a);
       p_die1 := option_map map_die (p_die1 a); p_bvis := option_map map_vis (p_bvis a); p_die2 := option_map map_die (p_die2 a) |}.
End Values.
