(* Model of /repo/africanus/model/spi/component_spi.py and dask.py.  Numbers are exact reals; the warning printed at the
   iteration limit is not modelled. *)
From Coq Require Import Reals.
From Verif Require Import Prelude DftModel.
Open Scope R_scope.

(* lines 30-42: the sums over the channels *)
Record sums : Type := { lik : R; jr0 : R; jr1 : R; hess00 : R; hess01 : R; hess11 : R }.
Definition channel_sums (nfreqs : nat) (jac0 jac1 residual weights : arr R) : sums :=
  for_ nfreqs (fun v s =>
    {| lik := lik s + residual v * weights v * residual v;
       jr0 := jr0 s + jac0 v * weights v * residual v;
       jr1 := jr1 s + jac1 v * weights v * residual v;
       hess00 := hess00 s + jac0 v * weights v * jac0 v;
       hess01 := hess01 s + jac0 v * weights v * jac1 v;
       hess11 := hess11 s + jac1 v * weights v * jac1 v |})
    {| lik := 0; jr0 := 0; jr1 := 0; hess00 := 0; hess01 := 0; hess11 := 0 |}.
(* lines 20-22 and the variables of the loop: the parameters, and hess00, hess11, det, lik once the body has run *)
Record fit : Type := { alphak : R; i0k : R; stats : option (R * R * R * R) }.
(* lines 24-46: one iteration and eps *)
Definition iteration (nfreqs : nat) (data weights w b : arr R) (mindet : R) (f : fit) : fit * R :=
  let alphap := alphak f in
  let i0p := i0k f in
  let jac1 v := b v * Rpower (w v) (alphak f) in
  let model v := i0k f * jac1 v in
  let jac0 v := model v * ln (w v) in
  let residual v := data v - model v in
  let s := channel_sums nfreqs jac0 jac1 residual weights in
  let det := Rmax (hess00 s * hess11 s - hess01 s ^ 2) mindet in
  let alpha' := alphap + (hess11 s * jr0 s - hess01 s * jr1 s) / det in
  let i0' := i0p + (- hess01 s * jr0 s + hess00 s * jr1 s) / det in
  let eps := Rmax (Rabs (alpha' - alphap)) (Rabs (i0' - i0p)) in
  ({| alphak := alpha'; i0k := i0'; stats := Some (hess00 s, hess11 s, det, lik s) |}, eps).
(* line 23: while eps > tol and k < maxiter, with the remaining iterations as fuel *)
Fixpoint iterate (fuel nfreqs : nat) (data weights w b : arr R) (mindet tol eps : R) (f : fit) : fit :=
  match fuel with
  | O => f
  | S fuel' =>
      if Rlt_dec tol eps then
        let '(f', eps') := iteration nfreqs data weights w b mindet f in iterate fuel' nfreqs data weights w b mindet tol eps' f'
      else f
  end.
(* lines 12-54.  Without an iteration the variables hess11, hess00, det and lik are unbound; dof is an integer, division by
   zero raises. *)
Definition fit_impl (data : arr2 R) (weights freqs : arr R) (freq0 : R) (out : arr2 R) (beam : arr2 R) (ncomps nfreqs : nat)
    (tol : R) (maxiter : nat) (mindet : R) : res (arr2 R) :=
  let w v := freqs v / freq0 in
  let dof := INR nfreqs - 2 in
  forM ncomps (fun comp out =>
    let f := iterate maxiter nfreqs (data comp) weights w (beam comp) mindet tol 1 {| alphak := out 0%nat comp; i0k := out 2%nat comp; stats := None |} in
    match stats f with
    | None => Raise NameError
    | Some (h00, h11, det, lik) =>
        if Nat.eqb nfreqs 2 then Raise ZeroDivision else
        let out := upd2 out 0 comp (alphak f) in
        let out := upd2 out 1 comp (h11 / det * lik / dof) in
        let out := upd2 out 2 comp (i0k f) in
        Ok (upd2 out 3 comp (h00 / det * lik / dof))
    end) out.
Inductive float_type : Type := Float32 | Float64 | OtherType.
(* lines 72-75: the first channel at the least distance from freq0 *)
Definition ref_freq_idx (nfreqs : nat) (freqs : arr R) (freq0 : R) : nat :=
  for_ nfreqs (fun v best => if Rlt_dec (Rabs (freqs v - freq0)) (Rabs (freqs best - freq0)) then v else best) O.
(* lines 57-86 *)
Definition fit_spi_components (ncomps nfreqs : nat) (dtype : float_type) (data : arr2 R) (weights freqs : arr R) (freq0 : R)
    (alphai I0i : option (arr R)) (beam : option (arr2 R)) (tol : R) (maxiter : nat) : res (arr2 R) :=
  let beam := match beam with None => fun _ _ => 1 | Some b => b end in
  let out0 : arr2 R := fun p comp =>
    match p with
    | O => match alphai with None => - (7 / 10) | Some a => a comp end
    | 2%nat => match I0i with
               | None => let idx := ref_freq_idx nfreqs freqs freq0 in data comp idx / beam comp idx
               | Some i => i comp end
    | _ => 0
    end in
  do! mindet <- match dtype with Float64 => Ok (1 / 10 ^ 12) | Float32 => Ok (1 / 10 ^ 5) | OtherType => Raise ValueError end;
  fit_impl data weights freqs freq0 out0 beam ncomps nfreqs tol maxiter mindet.
(* dask.py: blocks over comps; of the channel chunks the wrapper takes the first *)
Definition dask_fit (comps chans : list nat) (dtype : float_type) (data : arr2 R) (weights freqs : arr R) (freq0 : R)
    (alphai I0i : option (arr R)) (beam : option (arr2 R)) (tol : R) (maxiter : nat) (p comp : nat) : res R :=
  let '(c0, nc) := locate O comps comp in
  let shift {A} (x : arr A) : arr A := fun i => x (c0 + i)%nat in
  do! block <- fit_spi_components nc (hd O chans) dtype (shift data) weights freqs freq0 (option_map shift alphai) (option_map shift I0i) (option_map shift beam) tol maxiter;
  Ok (block p (comp - c0)%nat).
