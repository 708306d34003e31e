(* Model of /repo/africanus/gridding/util.py: estimate_cell_size. *)
From Coq Require Import Reals.
From Verif Require Import Prelude.
Open Scope R_scope.

(* a number of NumPy or Python.  Overflow and the sign of zero are not modelled: x / 0 is infinite with the sign of x. *)
Inductive ext : Type := Fin (x : R) | PInf | NInf | NaN.
Definition ext_mul (a b : ext) : ext :=
  match a, b with
  | Fin x, Fin y => Fin (x * y)
  | NaN, _ | _, NaN => NaN
  | PInf, PInf | NInf, NInf => PInf
  | PInf, NInf | NInf, PInf => NInf
  | PInf, Fin x | Fin x, PInf => if Rlt_dec 0 x then PInf else if Rlt_dec x 0 then NInf else NaN
  | NInf, Fin x | Fin x, NInf => if Rlt_dec 0 x then NInf else if Rlt_dec x 0 then PInf else NaN
  end.
(* np: one of the operands is a NumPy number, which divides by zero without an exception *)
Definition ext_div (np : bool) (a b : ext) : res ext :=
  match a, b with
  | Fin x, Fin y =>
      if Req_EM_T y 0 then (if np then Ok (if Rlt_dec 0 x then PInf else if Rlt_dec x 0 then NInf else NaN) else Raise ZeroDivision) else Ok (Fin (x / y))
  | NaN, _ | _, NaN => Ok NaN
  | Fin _, _ => Ok (Fin 0)
  | PInf, Fin y => if Req_EM_T y 0 then (if np then Ok PInf else Raise ZeroDivision) else Ok (if Rlt_dec 0 y then PInf else NInf)
  | NInf, Fin y => if Req_EM_T y 0 then (if np then Ok NInf else Raise ZeroDivision) else Ok (if Rlt_dec 0 y then NInf else PInf)
  | _, _ => Ok NaN
  end.
Definition ext_ltb (a b : ext) : bool :=
  match a, b with
  | Fin x, Fin y => if Rlt_dec x y then true else false
  | Fin _, PInf | NInf, Fin _ | NInf, PInf => true
  | _, _ => false
  end.

(* an argument: an array of n numbers (flattened), a float, or anything else (an int, a list, a NumPy float32) *)
Inductive arg_num : Type := Arr (n : nat) (a : arr R) | Flt (x : R) | Other.
(* a[0 : n].max() and .min() *)
Fixpoint max_of (n : nat) (a : arr R) : R := match n with O => 0 | S O => a O | S m => Rmax (max_of m a) (a m) end.
Fixpoint min_of (n : nat) (a : arr R) : R := match n with O => 0 | S O => a O | S m => Rmin (min_of m a) (a m) end.
(* 58-74: (is it NumPy, largest, smallest) of the moduli; the maximum of an empty array raises *)
Definition extremes (u : arg_num) : res (bool * R * R) :=
  match u with
  | Arr O _ => Raise ValueError
  | Arr n a => Ok (true, max_of n (fun i => Rabs (a i)), min_of n (fun i => Rabs (a i)))
  | Flt x => Ok (false, Rabs x, Rabs x)
  | Other => Raise TypeError
  end.
(* 76-81 *)
Definition smallest (w : arg_num) : res (bool * R) :=
  match w with
  | Arr O _ => Raise ValueError
  | Arr n a => Ok (true, min_of n a)
  | Flt x => Ok (false, x)
  | Other => Raise TypeError
  end.
(* 91-97: the size of the image is given and the product is too small *)
Definition check (np : bool) (n : option R) (cell least : ext) : res unit :=
  match n with
  | None => Ok tt
  | Some n =>
      do! bound <- ext_div np (Fin 1) least;
      if ext_ltb (ext_mul cell (Fin n)) bound then Raise ValueError else Ok tt
  end.
(* 100: np.rad2deg(...) * (60*60) *)
Definition arcsec (a : ext) : ext := ext_mul a (Fin (180 / PI * (60 * 60))).
(* estimate_cell_size(u, v, wavelength, factor, ny, nx) *)
Definition estimate_cell_size (u v wavelength : arg_num) (factor : R) (ny nx : option R) : res (ext * ext) :=
  do! ue <- extremes u;
  do! ve <- extremes v;
  do! we <- smallest wavelength;
  let '(unp, umax, umin) := ue in let '(vnp, vmax, vmin) := ve in let '(wnp, wave_min) := we in
  do! umax <- ext_div (unp || wnp) (Fin umax) (Fin wave_min);
  do! vmax <- ext_div (vnp || wnp) (Fin vmax) (Fin wave_min);
  do! umin <- ext_div (unp || wnp) (Fin umin) (Fin wave_min);
  do! vmin <- ext_div (vnp || wnp) (Fin vmin) (Fin wave_min);
  do! u_cell_size <- ext_div (unp || wnp) (Fin 1) (ext_mul (Fin (2 * factor)) umax);
  do! v_cell_size <- ext_div (vnp || wnp) (Fin 1) (ext_mul (Fin (2 * factor)) vmax);
  do! _ <- check (unp || wnp) ny u_cell_size umin;
  do! _ <- check (vnp || wnp) nx v_cell_size vmin;
  Ok (arcsec u_cell_size, arcsec v_cell_size).
