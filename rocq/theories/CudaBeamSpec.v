(* Specification vocabulary for C94 *)
From Coq Require Import Reals.
From Verif Require Import Prelude CRing CplxR DaskRimeModel BeamModel CudaModel CudaBeamModel.
Open Scope nat_scope.

(* the channels and correlations fill rows of 32 threads; the last row has all of them, or at least four *)
Definition last_row_loads (nchancorr : nat) : Prop := nchancorr mod 32 = 0 \/ 4 <= nchancorr mod 32.
(* scale, weight and plane of every channel, each with the map that channel sees *)
Definition freq_out (nmap nchan : nat) (map_of : nat -> arr R) (frequency : arr R) (x : name) : option R :=
  match x with
  | [c; f] => if (c <? 3) && (f <? nchan) then
                let '(scale, weight, plane) := freq_grid_interp nmap (map_of f) (frequency f) in
                Some (match c with 0 => scale | 1 => weight | _ => IZR plane end)
              else None
  | _ => None
  end.
(* the flattened output of this shape *)
Definition beam_out (nsrc ntime na nchan ncorr : nat) (v : nat -> nat -> nat -> nat -> arr RC) (x : name) : option RC :=
  let shape := [nsrc; ntime; na; nchan; ncorr] in
  match x with
  | [i] => if i <? prodn shape then match unravel shape i with [s; t; a; f; c] => Some (v s t a f c) | _ => None end else None
  | _ => None
  end.
(* A small beam for the counterexamples: amplitude 1 on the line l = 0 and 2 on the line l = 1, seen by one source at l = 1. *)
Definition toy_cube : cube := {| b_lw := 2; b_mh := 2; b_nud := 2; b_at := fun i _ _ _ => ofR (INR (S i)) |}.
Definition toy_ext : arr2 R := fun _ c => INR c.
Definition toy_map : arr R := fun i => INR (S i).
Definition toy_lm : arr2 R := fun _ c => match c with 0 => 1%R | _ => 0%R end.
Definition toy_gpu (lockstep : bool) (nchan : nat) := cuda_beam_cube_dde lockstep Complex64 toy_cube 1 toy_ext 2 toy_map 1 toy_lm 1 1
  (fun _ _ => 0%R) (fun _ _ _ _ => 0%R) (fun _ _ _ => 1%R) nchan (fun _ => 1%R).
Definition toy_cpu (nchan : nat) := beam_cube_dde toy_cube toy_ext 2 toy_map 1 toy_lm 1 1
  (fun _ _ => 0%R) (fun _ _ _ _ => 0%R) (fun _ _ _ => 1%R) nchan (fun _ => 1%R).
