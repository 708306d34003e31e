(* What a user of rime/examples/predict.py relies on: products of terms, and the visibilities of a sky model. *)
From Coq Require Import Reals String.
From Verif Require Import Prelude CRing CplxR RimeSpec CoordSpec SrcSpec CohSpec PredictSpec BeamModel BeamSpec PredictModel SrcModel PipeModel.
Open Scope nat_scope.
Open Scope list_scope.

(* ---------- products of terms ---------- *)
Section Terms.
  Context {K : cops}.
  Definition arg : Type := (string * tens K)%type.
  Definition is_bright (t : arg) : bool := String.eqb (fst t) "brightness".
  (* the shape a term must have: ns sources, nr rows, nf channels, nc correlations of a vector; full: 2x2 matrices *)
  Definition term_shape (full : bool) (ns nr nf nc : nat) (name : string) : option (list nat) :=
    if String.eqb name "brightness" then Some (if full then [ns; nf; 2; 2] else [ns; nf; nc])
    else if String.eqb name "phase_delay" then Some [ns; nr; nf]
    else if String.eqb name "gauss_shape" then Some [ns; nr; nf]
    else if String.eqb name "spi" then Some [ns]
    else None.
  Definition fits (full : bool) (ns nr nf nc : nat) (t : arg) : Prop := term_shape full ns nr nf nc (fst t) = Some (t_shape (snd t)).
  (* terms that have rows *)
  Definition has_rows (t : arg) : bool := (String.eqb (fst t) "phase_delay" || String.eqb (fst t) "gauss_shape")%bool.
  (* the factor of source s, row r, channel f: all terms but the brightness *)
  Fixpoint factor (args : list arg) (s r f : nat) : K :=
    match args with
    | [] => c1
    | t :: rest => if is_bright t then factor rest s r f
                   else cmul (t_at (snd t) (if has_rows t then [s; r; f] else [s])) (factor rest s r f)
    end.
  Definition brights (args : list arg) : list (tens K) := map snd (filter is_bright args).
  (* the matrix product of the brightness terms in the order given *)
  Fixpoint matrix_product (l : list (tens K)) (s f : nat) : jones K :=
    match l with
    | [] => jone true
    | b :: rest => jprod true (fun i j => t_at b [s; f; i; j]) (matrix_product rest s f)
    end.
  Fixpoint vector_product (l : list (tens K)) (s f c : nat) : K :=
    match l with [] => c1 | b :: rest => cmul (t_at b [s; f; c]) (vector_product rest s f c) end.
End Terms.

(* ---------- the visibilities of a sky model ---------- *)
Definition sky_sum {A} (f : A -> RC) (l : list A) : RC := fold_right (fun s acc => cadd (f s) acc) c0 l.
Definition is_gaussian (s : source) : Prop := lower (s_type s) = "gau"%string.
Definition is_point (s : source) : Prop := lower (s_type s) = "pnt"%string.
Definition known_source (s : source) : Prop := is_gaussian s \/ is_point s.
(* direction cosines relative to the phase centre *)
Definition src_l (c : R * R) (s : source) : R := dot (direction (s_ra s) (s_dec s)) (east (fst c)).
Definition src_m (c : R * R) (s : source) : R := dot (direction (s_ra s) (s_dec s)) (north (fst c) (snd c)).
(* a Stokes parameter x at frequency nu: x (nu / nu0)^alpha, constant if the source has no spectral index; all four use the same index *)
Definition at_freq (freq0 : R) (s : source) (nu x : R) : R :=
  (x * Rpower (nu / match s_freq0 s with Some f => f | None => freq0 end) (match s_spi s with Some a => a | None => 0 end))%R.
(* the correlation with CASA number z of Stokes parameters i, q, u, v *)
Definition correlation (i q u v : R) (z : Z) : option RC :=
  match casa_name z with
  | None => None
  | Some n => match linear_of (K := RR) i q u v n with Some x => Some x | None => circular_of (K := RR) i q u v n end
  end.
Definition brightness_at (freq0 : R) (s : source) (nu : R) (z : Z) : RC :=
  match correlation (at_freq freq0 s nu (s_I s)) (at_freq freq0 s nu (s_Q s)) (at_freq freq0 s nu (s_U s)) (at_freq freq0 s nu (s_V s)) z with
  | Some x => x | None => c0
  end.
(* exp (-2 pi i nu / c (u l + v m + w (n - 1))) times the Fourier transform of a Gaussian *)
Definition kernel (c : R * R) (s : source) (u v w nu : R) : RC :=
  cmul (cis (- delay (src_l c s) (src_m c s) u v w nu))
       (ofR (if String.eqb (lower (s_type s)) "gau" then extent "GAUSSIAN" (s_ex s) (s_ey s) (s_pa s) u v nu else 1)).
(* coordinates of row r, negated on request *)
Definition coord (invert : bool) (ms : rows) (r i : nat) : R := if invert then (- m_uvw ms r i)%R else m_uvw ms r i.
Definition kernel_at (st : setup) (ms : rows) (r f : nat) (s : source) : RC :=
  kernel (u_centre st) s (coord (u_invert st) ms r 0) (coord (u_invert st) ms r 1) (coord (u_invert st) ms r 2) (u_freq st f).

(* the correlations of the data: one, two or four different ones of linear feeds, or of circular feeds *)
Definition linear_types : list Z := [9; 10; 11; 12]%Z.
Definition circular_types : list Z := [5; 6; 7; 8]%Z.
Definition types_ok (corrs : nat) (types : list Z) : Prop :=
  (corrs = 1 \/ corrs = 2 \/ corrs = 4) /\ List.length types = corrs /\ NoDup types /\
  (incl types linear_types \/ incl types circular_types).

(* feed rotation by the angle chi *)
Definition feed (linear : bool) (chi : R) : jones RC :=
  fun i j => if linear then match i, j with
                            | 0, 0 => (cos chi, 0%R) | 0, _ => (sin chi, 0%R)
                            | _, 0 => (- sin chi, 0)%R | _, _ => (cos chi, 0%R) end
             else match i, j with 0, 0 => cis (- chi) | 0, _ => c0 | _, 0 => c0 | _, _ => cis chi end.
Definition beam_ok (b : beam_files) : Prop :=
  2 <= b_lw (bf_cube b) /\ 2 <= b_mh (bf_cube b) /\ 2 <= b_nud (bf_cube b) /\ bf_nmap b = b_nud (bf_cube b) /\ increasing (bf_nmap b) (bf_map b).
(* z is the value of correlation c of the beam in direction (l, m), turned by chi, at frequency nu: as in C35 *)
Definition beam_is (b : beam_files) (l m chi nu : R) (c : nat) (z : RC) : Prop :=
  exists sc w k, freq_plane (bf_nmap b) (bf_map b) nu sc w k /\
    let x := axis_pos (b_lw (bf_cube b)) (bf_ext b 0 0) (bf_ext b 0 1) (beam_l l m sc 0 0 chi 1) in
    let y := axis_pos (b_mh (bf_cube b)) (bf_ext b 1 0) (bf_ext b 1 1) (beam_m l m sc 0 0 chi 1) in
    z = with_amp (tri_amp (bf_cube b) x y w k c) (tri_val (bf_cube b) x y w k c).
(* the term of an antenna: beam times feed rotation *)
Definition antenna_term (linear : bool) (E : nat -> RC) (chi : R) : jones RC :=
  jprod true (fun i j => E (2 * i + j)) (feed linear chi).

(* ---------- one source in one row ---------- *)
(* without a beam: correlation c of the data *)
Definition source_vis (st : setup) (freq0 : R) (ms : rows) (r f c : nat) (s : source) : RC :=
  cmul (kernel_at st ms r f s) (brightness_at freq0 s (u_freq st f) (nth c (u_types st) 0%Z)).
(* antenna a at the time of row r, for the beam with values E l m chi nu c *)
Definition antenna_of (st : setup) (linear : bool) (E : R -> R -> R -> R -> nat -> RC) (ms : rows) (r f : nat) (s : source) (a : nat) : jones RC :=
  let chi := u_parang st (m_time ms r) a in
  antenna_term linear (E (src_l (u_centre st) s) (src_m (u_centre st) s) chi (u_freq st f)) chi.
(* with a beam: the four correlations form a matrix between the terms of the two antennas of the row *)
Definition corrupted_vis (st : setup) (freq0 : R) (linear : bool) (E : R -> R -> R -> R -> nat -> RC) (ms : rows) (r f c : nat) (s : source) : RC :=
  sandwich true (antenna_of st linear E ms r f s (m_ant1 ms r)) (fun i j => source_vis st freq0 ms r f (2 * i + j) s)
    (antenna_of st linear E ms r f s (m_ant2 ms r)) (c / 2) (c mod 2).
(* antennas exist *)
Definition antennas_ok (st : setup) (ms : rows) (nrow : nat) : Prop := forall r, r < nrow -> m_ant1 ms r < u_nants st /\ m_ant2 ms r < u_nants st.
Definition correct_axes {A} (l_ax m_ax nu_ax : nat) (data : list nat -> A) (cube : nat -> nat -> nat -> A) : Prop :=
  (* axis k of a FITS file with three axes is axis 3 - k of the array; entry d of the index belongs to the FITS axis 3 - d *)
  forall i j k, cube i j k = data (map (fun d => if Nat.eqb (3 - d) l_ax then i else if Nat.eqb (3 - d) m_ax then j else k) [0; 1; 2]).
(* the correlation of the two feeds exchanged *)
Definition mirror (z : Z) : Z := match z with 6 => 7 | 7 => 6 | 10 => 11 | 11 => 10 | _ => z end%Z.
(* the same run with the option --invert-uvw the other way *)
Definition flipped (st : setup) : setup :=
  {| u_invert := negb (u_invert st); u_beam := u_beam st; u_parang := u_parang st; u_nants := u_nants st; u_centre := u_centre st;
     u_nchan := u_nchan st; u_freq := u_freq st; u_corrs := u_corrs st; u_types := u_types st |}.
