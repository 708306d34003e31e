(* /repo/africanus/gridding/perleypolyhedron/policies/convolution_policies.py:6-112 (the scatter policies) and gridder.py:84-116
   with every operation on kernel values, visibilities and weights rounded.  GridModel.v has the same functions with exact numbers.
   Simplified: the scaled coordinates and the Stokes values are arguments (gridder.py:98-99 and the conversion policies compute
   them; they may be rounded in any way), and a coordinate is placed on the grid exactly.  Rounding a product of a complex number
   and a real one rounds the two parts, because numba's products with the imaginary part 0 are exact. *)
From Coq Require Import Reals.
From Verif Require Import Prelude CRing CplxR GridModel.
Close Scope R_scope.
Open Scope nat_scope.

Section Rounded.
  Context (fl : R -> R).
  (* convolution_policies.py:47-50: add w times s to a cell *)
  Definition add_tap (g s : RC) (w : R) : RC := (fl (fst g + fl (w * fst s)), fl (snd g + fl (w * snd s)))%R.
  (* convolution_policies.py:36-54, 83-112: returns the grid and the weight *)
  Definition scatter_rounded (index : kernel -> Z -> nat -> Z) (scaled_u scaled_v : R) (npix : nat) (grid : arr2 RC) (s : RC) (k : kernel) : res (arr2 RC * R) :=
    let disc_u := discrete npix scaled_u in
    let disc_v := discrete npix scaled_v in
    let frac_u := fraction npix scaled_u (oversampling k) in
    let frac_v := fraction npix scaled_v (oversampling k) in
    forM (width k) (fun tv gc =>
      do! conv_v <- getitem (nsamples k) (samples k) (index k frac_v tv);
      let grid_v_lookup := (disc_v + Z.of_nat tv - Z.of_nat (width k / 2))%Z in
      forM (width k) (fun tu gc =>
        do! conv_u <- getitem (nsamples k) (samples k) (index k frac_u tu);
        let grid_u_lookup := (disc_u + Z.of_nat tu - Z.of_nat (width k / 2))%Z in
        let grid := fst gc in
        let grid := if inside npix grid_v_lookup && inside npix grid_u_lookup
          then upd2 grid (Z.to_nat grid_v_lookup) (Z.to_nat grid_u_lookup)
                 (add_tap (grid (Z.to_nat grid_v_lookup) (Z.to_nat grid_u_lookup)) s (fl (conv_v * conv_u)))
          else grid in
        Ok (grid, fl (snd gc + fl (conv_v * conv_u)))) gc) (grid, 0%R).
  (* gridder.py:84-112: the stack of grids and the weights of the bands *)
  Definition stack_rounded (index : kernel -> Z -> nat -> Z) (nrow nchan : nat) (chanmap : arr nat) (su sv : arr2 R) (npix : nat) (s : arr2 RC) (k : kernel) : res (arr3 RC * arr R) :=
    forM nrow (fun r st => forM nchan (fun c (st : arr3 RC * arr R) =>
      do! (grid, cw) <- scatter_rounded index (su r c) (sv r c) npix (fst st (chanmap c)) (s r c) k;
      Ok (fun b => if Nat.eqb b (chanmap c) then grid else fst st b,
          upd (snd st) (chanmap c) (fl (snd st (chanmap c) + cw)))) st) (fun _ _ _ => c0, fun _ => 0%R).
  (* gridder.py:113-115: one band divided by its weight; eps is 1e-8 as stored *)
  Definition normalised (eps : R) (g : arr2 RC) (w : R) : arr2 RC :=
    fun y x => let d := fl (w + eps) in (fl (fst (g y x) / d), fl (snd (g y x) / d))%R.
End Rounded.
