(* Specification vocabulary for C26-C29: Jones algebra and the measurement equation. *)
From Verif Require Import Prelude CRing PredictModel.
Open Scope nat_scope.

Section Jones.
  Context {K : cops}.
  Open Scope K_scope.

  (* full = true: 2x2 matrices; full = false: diagonal matrices stored as a vector at
     indices (c, 0) *)
  Definition jprod (full : bool) (a b : jones K) : jones K :=
    if full then fun i j => csum 2 (fun k => a i k * b k j)
    else fun c z => a c z * b c z.
  Definition jherm (full : bool) (a : jones K) : jones K :=
    if full then fun i j => cconj (a j i) else fun c z => cconj (a c z).
  Definition jone (full : bool) : jones K :=
    if full then fun i j => if Nat.eqb i j then 1 else 0 else fun _ _ => 1.
  Definition jzero : jones K := fun _ _ => 0.
  Definition jadd (a b : jones K) : jones K := fun i j => a i j + b i j.
  Definition jsum (n : nat) (f : nat -> jones K) : jones K := fun i j => csum n (fun s => f s i j).
  (* A X B^H *)
  Definition sandwich (full : bool) (a x b : jones K) : jones K :=
    jprod full a (jprod full x (jherm full b)).
  (* the valid correlation indices *)
  Definition corr_ok (full : bool) (n i j : nat) : Prop :=
    if full then i < 2 /\ j < 2 else i < n /\ j = 0%nat.
  Definition jeq (full : bool) (n : nat) (a b : jones K) : Prop :=
    forall i j, corr_ok full n i j -> a i j = b i j.

  (* the sum over sources for row r, channel f: absent antenna terms and absent
     coherencies are the identity, except that there is no sum if both are absent *)
  Definition source_term (full : bool) (t : nat) (a : predict_in K) (r f : nat) : jones K :=
    let p := p_ant1 a r in let q := p_ant2 a r in
    match p_dde1 a, p_coh a, p_dde2 a with
    | Some e1, Some x, Some e2 =>
        jsum (d_src e1) (fun s => sandwich full (d_at e1 s t p f) (h_at x s r f) (d_at e2 s t q f))
    | Some e1, None, Some e2 =>
        jsum (d_src e1) (fun s => sandwich full (d_at e1 s t p f) (jone full) (d_at e2 s t q f))
    | None, Some x, None => jsum (h_src x) (fun s => h_at x s r f)
    | _, _, _ => jzero
    end.
  (* G_p (B + sum) G_q^H *)
  Definition measurement (full : bool) (t : nat) (a : predict_in K) (r f : nat) : jones K :=
    let b := match p_bvis a with Some b => v_at b r f | None => jzero end in
    let inner := jadd (source_term full t a r f) b in
    match p_die1 a, p_die2 a with
    | Some g1, Some g2 => sandwich full (g_at g1 t (p_ant1 a r) f) inner (g_at g2 t (p_ant2 a r) f)
    | _, _ => inner
    end.

  Definition is_min (n : nat) (f : arr Z) (m : Z) : Prop :=
    (exists r, r < n /\ f r = m) /\ forall r, r < n -> (m <= f r)%Z.

  (* all supplied arrays agree on the extents they share *)
  Record shapes (full : bool) (nsrc nchan ncorr : nat) (a : predict_in K) : Prop := {
    sh_dde1 : forall e, p_dde1 a = Some e ->
                d_ndim e = (if full then 6 else 5) /\ d_src e = nsrc /\ d_chan e = nchan /\ d_corr e = ncorr;
    sh_dde2 : forall e, p_dde2 a = Some e ->
                d_ndim e = (if full then 6 else 5) /\ d_src e = nsrc /\ d_chan e = nchan /\ d_corr e = ncorr;
    sh_coh : forall x, p_coh a = Some x ->
                h_ndim x = (if full then 5 else 4) /\ h_src x = nsrc /\ h_row x = p_nrow a /\
                h_chan x = nchan /\ h_corr x = ncorr;
    sh_die1 : forall g, p_die1 a = Some g ->
                g_ndim g = (if full then 5 else 4) /\ g_chan g = nchan /\ g_corr g = ncorr;
    sh_die2 : forall g, p_die2 a = Some g ->
                g_ndim g = (if full then 5 else 4) /\ g_chan g = nchan /\ g_corr g = ncorr;
    sh_bvis : forall b, p_bvis a = Some b ->
                v_ndim b = (if full then 4 else 3) /\ v_row b = p_nrow a /\ v_chan b = nchan /\ v_corr b = ncorr
  }.
  (* antenna terms come in pairs and something is supplied *)
  Definition paired {A B} (x : option A) (y : option B) : Prop := x = None <-> y = None.
  Definition supplied (a : predict_in K) : Prop :=
    p_dde1 a <> None \/ p_coh a <> None \/ p_die1 a <> None \/ p_bvis a <> None.
End Jones.

(* ---- C29: argument combinations, by number of dimensions ---- *)
(* full = true: (2,2) correlations; full = false: (1,) or (2,) *)
Definition dims_ok (full : bool) (x : option nat) (base : nat) : Prop :=
  match x with None => True | Some n => n = base + if full then 2 else 1 end.
Definition admissible (dde1 coh dde2 die1 bvis die2 : option nat) : Prop :=
  (dde1 = None <-> dde2 = None) /\ (die1 = None <-> die2 = None) /\
  exists full, dims_ok full dde1 4 /\ dims_ok full dde2 4 /\ dims_ok full coh 3 /\
               dims_ok full die1 3 /\ dims_ok full die2 3 /\ dims_ok full bvis 2.

Section Sky.
  Context {K : cops}.
  Definition ndims_admissible (a : predict_in K) : Prop :=
    admissible (option_map d_ndim (p_dde1 a)) (option_map h_ndim (p_coh a)) (option_map d_ndim (p_dde2 a))
      (option_map g_ndim (p_die1 a)) (option_map v_ndim (p_bvis a)) (option_map g_ndim (p_die2 a)).

  (* sources of x followed by those of y *)
  Definition cat_dde (x y : dde_arr K) : dde_arr K :=
    {| d_ndim := d_ndim x; d_src := d_src x + d_src y; d_chan := d_chan x; d_corr := d_corr x;
       d_at := fun s => if Nat.ltb s (d_src x) then d_at x s else d_at y (s - d_src x) |}.
  Definition cat_coh (x y : coh_arr K) : coh_arr K :=
    {| h_ndim := h_ndim x; h_src := h_src x + h_src y; h_row := h_row x; h_chan := h_chan x; h_corr := h_corr x;
       h_at := fun s => if Nat.ltb s (h_src x) then h_at x s else h_at y (s - h_src x) |}.
  Definition cat_opt {A} (f : A -> A -> A) (x y : option A) : option A :=
    match x, y with Some a, Some b => Some (f a b) | _, _ => None end.
  (* sources renumbered by p *)
  Definition perm_dde (p : nat -> nat) (x : dde_arr K) : dde_arr K :=
    {| d_ndim := d_ndim x; d_src := d_src x; d_chan := d_chan x; d_corr := d_corr x; d_at := fun s => d_at x (p s) |}.
  Definition perm_coh (p : nat -> nat) (x : coh_arr K) : coh_arr K :=
    {| h_ndim := h_ndim x; h_src := h_src x; h_row := h_row x; h_chan := h_chan x; h_corr := h_corr x;
       h_at := fun s => h_at x (p s) |}.
  Definition with_sky (a : predict_in K) d1 x d2 : predict_in K :=
    {| p_nrow := p_nrow a; p_time := p_time a; p_ant1 := p_ant1 a; p_ant2 := p_ant2 a;
       p_dde1 := d1; p_coh := x; p_dde2 := d2; p_die1 := p_die1 a; p_bvis := p_bvis a; p_die2 := p_die2 a |}.
End Sky.
