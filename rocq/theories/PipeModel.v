(* Model of /repo/africanus/rime/examples/predict.py: the script that writes MODEL_DATA for a sky model.
   Tigger, the measurement set, the FITS files and astropy are outside: their contents are arguments.  The lazy arrays are evaluated
   one chunk of rows at a time with all sources in it (the division of sources into chunks is that of predict_vis, C28). *)
From Coq Require Import Reals String Ascii.
From Verif Require Import Prelude CRing CplxR RimeModel CoordModel SrcModel CohModel PredictModel BeamModel DftModel.
Open Scope nat_scope.
Open Scope list_scope.

(* ---------- einsum ---------- *)
Section Einsum.
  Context {K : cops}.
  Record tens : Type := { t_shape : list nat; t_at : list nat -> K }.
  Definition env : Type := string -> nat.
  Definition bind_ (e : env) (l : string) (i : nat) : env := fun l' => if String.eqb l' l then i else e l'.
  Definition bind_all (ls : list string) (idx : list nat) : env :=
    fold_left (fun e p => bind_ e (fst p) (snd p)) (combine ls idx) (fun _ => 0).
  Definition member (l : string) (ls : list string) : bool := existsb (String.eqb l) ls.
  Fixpoint size_of (l : string) (sizes : list (string * nat)) : option nat :=
    match sizes with [] => None | (l', n) :: r => if String.eqb l l' then Some n else size_of l r end.
  (* the size of every letter, in order of first use.  Letters with different sizes are refused; NumPy repeats an axis of size one,
     which is not modelled. *)
  Fixpoint sizes_of (labels : list (string * nat)) (seen : list (string * nat)) : res (list (string * nat)) :=
    match labels with
    | [] => Ok seen
    | (l, n) :: r =>
        match size_of l seen with
        | None => sizes_of r (seen ++ [(l, n)])
        | Some n' => if Nat.eqb n n' then sizes_of r seen else Raise ValueError
        end
    end.
  Fixpoint sum_over (ls : list (string * nat)) (f : env -> K) (e : env) : K :=
    match ls with [] => f e | (l, n) :: r => csum n (fun i => sum_over r f (bind_ e l i)) end.
  Fixpoint nodup_b (ls : list string) : bool := match ls with [] => true | l :: r => negb (member l r) && nodup_b r end.
  (* the product of the operands, read at the values of their letters *)
  Fixpoint operands (ins : list (list string)) (ops : list tens) (e : env) : K :=
    match ins, ops with
    | ls :: ins', a :: ops' => cmul (t_at a (map e ls)) (operands ins' ops' e)
    | _, _ => c1
    end.
  (* da.einsum("ins->out", *ops) *)
  Definition einsum (ins : list (list string)) (out : list string) (ops : list tens) : res tens :=
    if negb (forallb (fun p => Nat.eqb (List.length (fst p)) (List.length (t_shape (snd p)))) (combine ins ops)) then Raise ValueError else
    do! sizes <- sizes_of (concat (map (fun p => combine (fst p) (t_shape (snd p))) (combine ins ops))) [];
    if negb (nodup_b out && forallb (fun l => match size_of l sizes with Some _ => true | None => false end) out) then Raise ValueError else
    let summed := filter (fun p => negb (member (fst p) out)) sizes in
    Ok {| t_shape := map (fun l => match size_of l sizes with Some n => n | None => 0 end) out;
          t_at := fun idx => sum_over summed (operands ins ops) (bind_all out idx) |}.

  (* ---------- predict.py:35-120 ---------- *)
  Definition corr_letters : list string := ["i"; "j"; "k"; "l"]%string.                       (* 35 *)
  (* 38-42, 45-55 and the table of lines 65-70 *)
  Definition term_schema (name : string) (corrs index : nat) : option (list string * nat) :=
    if String.eqb name "brightness" then
      Some (if Nat.eqb corrs 4 then (["s"; "f"]%string ++ firstn 2 (skipn index corr_letters), S index) else (["s"; "f"; "i"]%string, index))
    else if String.eqb name "phase_delay" then Some (["s"; "r"; "f"]%string, index)
    else if String.eqb name "spi" then Some (["s"]%string, index)
    else if String.eqb name "gauss_shape" then Some (["s"; "r"; "f"]%string, index)
    else None.
  (* 58-62 *)
  Definition output_schema (corrs index : nat) : res (list string) :=
    if Nat.eqb corrs 4 then
      match nth_error corr_letters index with Some c => Ok (["s"; "r"; "f"; "i"]%string ++ [c]) | None => Raise IndexError end
    else Ok ["s"; "r"; "f"; "i"]%string.
  (* 105-115 *)
  Fixpoint input_schemas (corrs index : nat) (args : list (string * tens)) : res (list (list string) * nat) :=
    match args with
    | [] => Ok ([], index)
    | (name, a) :: rest =>
        match term_schema name corrs index with
        | None => Raise ValueError
        | Some (schema, index') =>
            if negb (Nat.eqb (List.length schema) (List.length (t_shape a))) then Raise ValueError else
            do! (more, last) <- input_schemas corrs index' rest;
            Ok (schema :: more, last)
        end
    end.
  (* 98-120; the arguments are pairs of a name and an array *)
  Definition baseline_jones_multiply (corrs : nat) (args : list (string * tens)) : res tens :=
    do! (ins, index) <- input_schemas corrs 0 args;
    do! out <- output_schema corrs index;
    einsum ins out (map snd args).
End Einsum.
Arguments tens : clear implicits.

(* 73-95 *)
Definition corr_schema (corrs : nat) (types : list Z) : res sch :=
  let ty i := match nth_error types i with Some z => Ok (SInt z) | None => Raise IndexError end in
  if Nat.eqb corrs 4 then
    do! a <- ty 0; do! b <- ty 1; do! c <- ty 2; do! d <- ty 3; Ok (SSeq [SSeq [a; b]; SSeq [c; d]])
  else if Nat.eqb corrs 2 then do! a <- ty 0; do! b <- ty 1; Ok (SSeq [a; b])
  else if Nat.eqb corrs 1 then do! a <- ty 0; Ok (SSeq [a])
  else Raise ValueError.

(* ---------- 231-320 parse_sky_model ---------- *)
(* a Tigger source.  A missing or empty spectrum has neither attribute. *)
Record source : Type := {
  s_type : string; s_ra : R; s_dec : R; s_I : R; s_Q : R; s_U : R; s_V : R;
  s_freq0 : option R; s_spi : option R; s_ex : R; s_ey : R; s_pa : R }.
(* one row of the arrays that are made; the spectral indices are (1, 4) *)
Record row : Type := { w_radec : R * R; w_stokes : arr R; w_spi : arr2 R; w_ref : R; w_shape : arr R }.
(* str.lower, for ASCII *)
Definition lower_ascii (c : ascii) : ascii :=
  let n := nat_of_ascii c in if (Nat.leb 65 n && Nat.leb n 90)%bool then ascii_of_nat (n + 32) else c.
Fixpoint lower (s : string) : string := match s with EmptyString => EmptyString | String c r => String (lower_ascii c) (lower r) end.
Definition stokes_row (s : source) : arr R := fun p => match p with 0 => s_I s | 1 => s_Q s | 2 => s_U s | _ => s_V s end.
Definition shape_row (s : source) : arr R := fun p => match p with 0 => s_ex s | 1 => s_ey s | _ => s_pa s end.
Definition parse_row (model_freq0 : R) (s : source) : row :=
  {| w_radec := (s_ra s, s_dec s); w_stokes := stokes_row s;
     w_spi := match s_spi s with Some a => fun _ _ => a | None => fun _ _ => 0%R end;          (* 271-277 *)
     w_ref := match s_freq0 s with Some f => f | None => model_freq0 end;                       (* 265-269 *)
     w_shape := shape_row s |}.
(* 251-299: point sources and Gaussians, in the order of the file *)
Fixpoint parse_sky_model (model_freq0 : R) (sources : list source) : res (list row * list row) :=
  match sources with
  | [] => Ok ([], [])
  | s :: rest =>
      let typecode := lower (s_type s) in
      if String.eqb typecode "gau" then
        do! (p, g) <- parse_sky_model model_freq0 rest; Ok (p, parse_row model_freq0 s :: g)
      else if String.eqb typecode "pnt" then
        do! (p, g) <- parse_sky_model model_freq0 rest; Ok (parse_row model_freq0 s :: p, g)
      else Raise ValueError
  end.

(* ---------- np.unique(return_inverse=True): the distinct values in order and the place of each element ---------- *)
Fixpoint insert_unique (x : R) (l : list R) : list R :=
  match l with
  | [] => [x]
  | y :: r => if Rlt_dec x y then x :: l else if Req_EM_T x y then l else y :: insert_unique x r
  end.
Fixpoint place (x : R) (l : list R) : nat :=
  match l with [] => 0 | y :: r => if Req_EM_T x y then 0 else S (place x r) end.
Definition unique_times (n : nat) (time : arr R) : list R := fold_right insert_unique [] (map time (seq 0 n)).

(* ---------- 372-434 dde_factory ---------- *)
(* the cube has the four correlations of the files in the order of CORR_TYPE *)
Record beam_files : Type := { bf_cube : cube; bf_ext : arr2 R; bf_nmap : nat; bf_map : arr R }.
Definition within_types (types allowed : list Z) : bool := forallb (fun z => existsb (Z.eqb z) allowed) types.
Definition pol_type_of (types : list Z) : res string :=
  if within_types types [9; 10; 11; 12]%Z then Ok "linear"%string
  else if within_types types [5; 6; 7; 8]%Z then Ok "circular"%string
  else Raise ValueError.
(* parang t a: the parallactic angle of antenna a at time t.  The angles of the times utime are flattened for feed_rotation. *)
Definition dde_factory (beam : option beam_files) (types : list Z) (parang : R -> nat -> R) (nants nsrc : nat) (lm : arr2 R)
    (utime : list R) (nchan : nat) (frequency : arr R) (garbage : arr3 RC) : res (option (dde_arr RC)) :=
  match beam with
  | None => Ok None                                                                              (* 373-374 *)
  | Some b =>
      if negb (Nat.eqb (List.length types) 4) then Raise ValueError else                         (* 379-380 *)
      let ntime := List.length utime in
      let parangles : arr2 R := fun t a => parang (nth t utime 0%R) a in
      do! pol_type <- pol_type_of types;                                                         (* 385-395 *)
      do! feed_rot <- feed_rotation (ntime * nants) (fun i => parangles (i / nants) (i mod nants)) true pol_type garbage;
      (* 403-417, 426-430: no pointing errors, no scaling *)
      do! e <- beam_cube_dde (bf_cube b) (bf_ext b) (bf_nmap b) (bf_map b) nsrc lm ntime nants parangles
                 (fun _ _ _ _ => 0%R) (fun _ _ _ => 1%R) nchan frequency;
      (* 424: the correlations become (2, 2); 433-434: einsum("stafij,tajk->stafik") *)
      Ok (Some {| d_ndim := 6; d_src := nsrc; d_chan := nchan; d_corr := 2;
                  d_at := fun s t a f i k => csum 2 (fun j => cmul (e s t a f (2 * i + j)) (feed_rot (t * nants + a) j k)) |})
  end.

(* ---------- 437-496 vis_factory, for one chunk of rows ---------- *)
Record rows : Type := { m_nrow : nat; m_uvw : arr2 R; m_time : arr R; m_ant1 : arr nat; m_ant2 : arr nat }.
Record setup : Type := {
  u_invert : bool; u_beam : option beam_files; u_parang : R -> nat -> R; u_nants : nat; u_centre : R * R;
  u_nchan : nat; u_freq : arr R; u_corrs : nat; u_types : list Z }.
(* contents of np.empty *)
Record junk : Type := { j_feed : arr3 RC; j_spec : arr3 R; j_conv : list nat -> cx RR; j_gauss : arr3 R }.
Definition no_row : row := {| w_radec := (0%R, 0%R); w_stokes := fun _ => 0%R; w_spi := fun _ _ => 0%R; w_ref := 0%R; w_shape := fun _ => 0%R |}.
Definition arr3_tens {A} (f : A -> RC) (n1 n2 n3 : nat) (a : arr3 A) : tens RC :=
  {| t_shape := [n1; n2; n3]; t_at := fun idx => f (a (nth 0 idx 0) (nth 1 idx 0) (nth 2 idx 0)) |}.
Definition vis_factory (u : setup) (g : junk) (gauss : bool) (src : list row) (ms : rows) : res (vis_arr RC) :=
  let nsrc := List.length src in
  let s_ i := nth i src no_row in
  let nchan := u_nchan u in let frequency := u_freq u in
  do! lm <- radec_to_lm nsrc 2 (fun s i => match i with 0 => fst (w_radec (s_ s)) | _ => snd (w_radec (s_ s)) end) (Some (u_centre u));
  let uvw : arr2 R := if u_invert u then fun r i => (- m_uvw ms r i)%R else m_uvw ms in          (* 450 *)
  do! phase <- phase_delay nsrc (m_nrow ms) nchan lm uvw frequency "fourier";                    (* 453: the default convention *)
  do! stokes <- spectral_model nsrc nchan 1 (Some 4) (Some 4) (fun s => w_stokes (s_ s)) (fun s => w_spi (s_ s)) (fun s => w_ref (s_ s))
                  frequency (BOne (BInt 0)) (j_spec g);                                          (* 457-461 *)
  do! schema <- corr_schema (u_corrs u) (u_types u);
  do! brightness <- convert (K := RR) (1 / 2)%R (j_conv g)
                  {| nd_shape := [nsrc; nchan; 4]; nd_at := fun idx => ((stokes (nth 0 idx 0) (nth 1 idx 0) (nth 2 idx 0), 0%R) : cx RR) |}
                  (SSeq [SStr "I"; SStr "Q"; SStr "U"; SStr "V"]) schema;                        (* 463-464 *)
  let terms := [("phase_delay"%string, arr3_tens (fun z : RC => z) nsrc (m_nrow ms) nchan phase)] ++
    (if gauss then [("gauss_shape"%string, arr3_tens ofR nsrc (m_nrow ms) nchan
                       (gaussian nsrc (m_nrow ms) nchan uvw frequency (fun s => w_shape (s_ s)) (j_gauss g)))] else []) ++
    [("brightness"%string, {| t_shape := nd_shape brightness; t_at := fun idx => (nd_at brightness idx : RC) |})] in   (* 466-473 *)
  let utime := unique_times (m_nrow ms) (m_time ms) in                                           (* 475-488 *)
  do! jones <- baseline_jones_multiply (u_corrs u) terms;
  do! dde <- dde_factory (u_beam u) (u_types u) (u_parang u) (u_nants u) nsrc lm utime nchan frequency (j_feed g);
  predict_vis {| p_nrow := m_nrow ms; p_time := fun r => Z.of_nat (place (m_time ms r) utime);
                 p_ant1 := m_ant1 ms; p_ant2 := m_ant2 ms; p_dde1 := dde;
                 p_coh := Some {| h_ndim := List.length (t_shape jones); h_src := nth 0 (t_shape jones) 0; h_row := nth 1 (t_shape jones) 0;
                                  h_chan := nth 2 (t_shape jones) 0; h_corr := nth 3 (t_shape jones) 0;
                                  h_at := fun s r f i j => t_at jones (match List.length (t_shape jones) with 5 => [s; r; f; i; j] | _ => [s; r; f; i] end) |};
                 p_dde2 := dde; p_die1 := None; p_bvis := None; p_die2 := None |}.

(* ---------- 499-551 predict, for one chunk of rows of one dataset ---------- *)
(* the groups of the dictionary: 301-318 leave out the empty ones *)
Definition groups (parsed : list row * list row) : list (bool * list row) :=
  (match fst parsed with [] => [] | _ => [(false, fst parsed)] end) ++
  (match snd parsed with [] => [] | _ => [(true, snd parsed)] end).
(* sum(source_vis); 0 if there is none *)
Fixpoint add_groups (u : setup) (g : junk) (gs : list (bool * list row)) (ms : rows) (acc : option (vis_arr RC)) : res (option (vis_arr RC)) :=
  match gs with
  | [] => Ok acc
  | (k, src) :: rest =>
      do! v <- vis_factory u g k src ms;
      add_groups u g rest ms
        (Some (match acc with
               | None => v
               | Some a => {| v_ndim := v_ndim v; v_row := v_row v; v_chan := v_chan v; v_corr := v_corr v;
                              v_at := fun r f i j => cadd (v_at a r f i j) (v_at v r f i j) |}
               end))
  end.
(* MODEL_DATA of a chunk of rows: (row, chan, corr).  An empty sky model leaves the number 0, which has no method reshape; with fewer
   correlations it is no array with three dimensions. *)
Definition model_data (u : setup) (g : junk) (parsed : list row * list row) (ms : rows) : res (arr3 RC) :=
  do! total <- add_groups u g (groups parsed) ms None;
  match total with
  | None => Raise (if Nat.eqb (u_corrs u) 4 then AttributeErrorExn else ValueError)
  | Some v => Ok (if Nat.eqb (u_corrs u) 4 then fun r f c => v_at v r f (c / 2) (c mod 2) else fun r f c => v_at v r f c 0)
  end.
(* rows start, start + 1, ... *)
Definition from_row (ms : rows) (start n : nat) : rows :=
  {| m_nrow := n; m_uvw := fun r => m_uvw ms (start + r); m_time := fun r => m_time ms (start + r);
     m_ant1 := fun r => m_ant1 ms (start + r); m_ant2 := fun r => m_ant2 ms (start + r) |}.
(* the column of a dataset whose rows are read in the given chunks: each element comes from the block that holds it *)
Definition predict (u : setup) (g : junk) (model_freq0 : R) (sky : list source) (chunks : list nat) (ms : rows) : res (nat -> nat -> nat -> res RC) :=
  do! parsed <- parse_sky_model model_freq0 sky;
  match groups parsed with
  | [] => Raise (if Nat.eqb (u_corrs u) 4 then AttributeErrorExn else ValueError)
  | _ => Ok (fun r f c =>
      let '(start, n) := locate O chunks r in
      do! out <- model_data u g parsed (from_row ms start n);
      Ok (out (r - start) f c))
  end.

(* ---------- 203-215 load_beams: the axes of a FITS file ---------- *)
(* FITS numbers axes from one and stores the last one slowest: axis k of three is axis 3 - k of the NumPy array *)
Definition transpose3 {A} (ax : nat * nat * nat) (a : list nat -> A) : nat -> nat -> nat -> A :=
  fun i j k => a (map (fun d => if Nat.eqb d (fst (fst ax)) then i else if Nat.eqb d (snd (fst ax)) then j else k) [0; 1; 2]).
(* line 203: ax = (nu_ax - 1, m_ax - 1, l_ax - 1) *)
Definition load_axes {A} (l_ax m_ax nu_ax : nat) (data : list nat -> A) : nat -> nat -> nat -> A :=
  transpose3 (nu_ax - 1, m_ax - 1, l_ax - 1) data.
