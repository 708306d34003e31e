(* Model of /repo/africanus/averaging/splines.py.

   Numbers are rationals: every operation in the file is +, -, * or /, so exact arithmetic on finite floats stays
   rational.  Rounding, overflow and NaN are not modelled.  Compiled code divides with Python's error model: dividing
   by zero raises.  Arrays are read and written without bounds checks. *)
From Coq Require Import QArith QArith.Qcanon.
From Verif Require Import Prelude QcArith.
Close Scope Q_scope. Close Scope Qc_scope.
Open Scope nat_scope.

Definition qz (z : Z) : Qc := Q2Qc (inject_Z z).
Definition third : Qc := Q2Qc (1 # 3).
Definition qdiv (a b : Qc) : res Qc := if Qc_eq_bool b 0%Qc then Raise ZeroDivision else Ok (a / b)%Qc.

(* splines.py:22-24: row i of diag (columns A, B, C) together with v[i]; both start as zeros *)
Record row : Type := { rA : Qc; rB : Qc; rC : Qc; rv : Qc }.
Definition zero_row : row := {| rA := 0%Qc; rB := 0%Qc; rC := 0%Qc; rv := 0%Qc |}.

(* splines.py:27-32: the interior rows, i from 1 to n - 2 *)
Definition interior (n : nat) (x y : arr Qc) : res (arr row) :=
  forM (n - 2) (fun k (d : arr row) =>
    let i := S k in
    do! r <- qdiv (y (i + 1) - y i) (x (i + 1) - x i);
    do! l <- qdiv (y i - y (i - 1)) (x i - x (i - 1));
    Ok (upd d i {| rA := third * (x i - x (i - 1)); rB := (qz 2 * third) * (x (i + 1) - x (i - 1));
                   rC := third * (x (i + 1) - x i); rv := r - l |})) (fun _ => zero_row).

(* splines.py:35-44: the first row.  With left_type 2 the value goes into diag[0, C], not into v[0]. *)
Definition left_end (x y : arr Qc) (left_type : Z) (left_value : Qc) (d : arr row) : res (arr row) :=
  if Z.eqb left_type 2 then Ok (upd d 0 {| rA := 0%Qc; rB := qz 2; rC := left_value; rv := rv (d 0) |})
  else if Z.eqb left_type 1 then
    do! s <- qdiv (y 1 - y 0) (x 1 - x 0);
    Ok (upd d 0 {| rA := 1 * (x 1 - x 0); rB := qz 2 * (x 1 - x 0); rC := rC (d 0); rv := qz 3 * (- left_value + s) |})
  else Raise ValueError.

(* splines.py:47-56: the last row.  The second test looks at left_type. *)
Definition right_end (n : nat) (x y : arr Qc) (left_type right_type : Z) (right_value : Qc) (d : arr row) : res (arr row) :=
  if Z.eqb right_type 2 then Ok (upd d (n - 1) {| rA := rA (d (n - 1)); rB := qz 2; rC := 0%Qc; rv := right_value |})
  else if Z.eqb left_type 1 then
    do! s <- qdiv (y (n - 1) - y (n - 2)) (x (n - 1) - x (n - 2));
    Ok (upd d (n - 1) {| rA := rA (d (n - 1)); rB := qz 2 * (x (n - 1) - x (n - 2));
                         rC := 1 * (x (n - 1) - x (n - 2)); rv := qz 3 * (right_value - s) |})
  else Raise ValueError.

(* splines.py:59-62: forward sweep *)
Definition sweep (n : nat) (d : arr row) : arr row :=
  for_ (n - 1) (fun k (d : arr row) =>
    let i := S k in
    let prev := d (i - 1) in
    let w := (rA (d i) - rB prev)%Qc in
    upd d i {| rA := rA (d i); rB := rB (d i) - w * rC prev; rC := rC (d i); rv := rv (d i) - w * rv prev |}) d.

(* splines.py:65-69: back substitution, i from n - 1 down to 0.  z[n] lies outside z: [stray] is what is read there. *)
Definition back (n : nat) (stray : Qc) (d : arr row) : res (arr Qc) :=
  do! last <- qdiv (rv (d (n - 1))) (rB (d (n - 1)));
  forM n (fun k (z : arr Qc) =>
    let i := n - 1 - k in
    do! q <- qdiv (rv (d i) - rC (d i) * z (i + 1)) (rB (d i));
    Ok (upd z i q)) (upd (upd (fun _ => 0%Qc) n stray) (n - 1) last).

(* splines.py:13-71 solve_trid_system *)
Definition solve_trid_system (n : nat) (x y : arr Qc) (left_type right_type : Z) (left_value right_value stray : Qc) : res (arr Qc) :=
  do! d <- interior n x y;
  do! d <- left_end x y left_type left_value d;
  do! d <- right_end n x y left_type right_type right_value d;
  back n stray (sweep n d).

Record spline : Type := { ma : arr Qc; mb : arr Qc; mc : arr Qc; mx : arr Qc; my : arr Qc; knots : nat }.

(* splines.py:74-93 fit_cubic_spline; n >= 2 knots.  The arrays a and c are filled together. *)
Definition fit_cubic_spline (n : nat) (x y : arr Qc) (left_type right_type : Z) (left_value right_value stray : Qc) : res spline :=
  do! b <- solve_trid_system n x y left_type right_type left_value right_value stray;
  do! ac <- forM (n - 1) (fun i (ac : arr (Qc * Qc)) =>
    do! ai <- qdiv (b (i + 1) - b i) (qz 3 * (x (i + 1) - x i));
    do! s <- qdiv (y (i + 1) - y i) (x (i + 1) - x i);
    let next := i + 1 in
    Ok (upd ac i (ai, s - (qz 2 * b i + b next) * (x next - x i) / qz 3)%Qc)) (fun _ => (0%Qc, 0%Qc));
  let last := n - 1 in
  let prev := n - 2 in
  let h := (x prev - x last)%Qc in
  let ac := upd ac last (0%Qc, qz 3 * fst (ac prev) * h * h + qz 2 * b prev * h + snd (ac prev))%Qc in
  Ok {| ma := fun i => fst (ac i); mb := b; mc := fun i => snd (ac i); mx := x; my := y; knots := n |}.

(* np.searchsorted(mx, p, side='right') on the sorted array mx: how many entries are <= p *)
Definition searchsorted_right (n : nat) (mx : arr Qc) (p : Qc) : nat :=
  length (filter (fun i => negb (Qc_ltb p (mx i))) (seq 0 n)).

(* splines.py:107-118, 120-130, 131-140: one value.  The comparisons are with the first and last query x[0] and
   x[n - 1], and n is the number of queries. *)
Definition spline_point (s : spline) (order : Z) (n : nat) (x : arr Qc) (p : Qc) : Qc :=
  let j := searchsorted_right (knots s) (mx s) p - 1 in
  let h := (p - mx s j)%Qc in
  let last := n - 1 in
  if Z.eqb order 0 then
    if Qc_ltb p (x 0) then ((mb s 0%nat * h + mc s 0%nat) * h + my s 0%nat)%Qc
    else if Qc_ltb (x last) p then ((mb s last * h + mc s last) * h + my s last)%Qc
    else (((ma s j * h + mb s j) * h + mc s j) * h + my s j)%Qc
  else if Z.eqb order 1 then
    if Qc_ltb p (x 0) then (qz 2 * mb s 0%nat * h + mc s 0%nat)%Qc
    else if Qc_ltb (x last) p then (qz 2 * mb s last * h + mc s last)%Qc
    else ((qz 3 * ma s j * h + qz 2 * mb s j) * h + mc s j)%Qc
  else
    if Qc_ltb p (x 0) then (qz 2 * mb s 0%nat * h)%Qc
    else if Qc_ltb (x last) p then (qz 2 * mb s last)%Qc
    else (qz 6 * ma s j * h + qz 2 * mb s j)%Qc.

(* splines.py:96-142 evaluate_spline at the n queries x *)
Definition evaluate_spline (s : spline) (n : nat) (x : arr Qc) (order : Z) : res (arr Qc) :=
  if Z.eqb order 0 || Z.eqb order 1 || Z.eqb order 2
  then Ok (for_ n (fun i values => upd values i (spline_point s order n x (x i))) (fun _ => 0%Qc))
  else Raise ValueError.
