(* /repo/africanus/gridding/perleypolyhedron/policies/convolution_policies.py:148-257 (the gather policies) with every operation
   on kernel values, cells, correlations and weights rounded.  GridModel.v has the same function with exact numbers.
   Simplified: the coordinates are arguments and are placed on the grid exactly; the correlations start at zero, as the
   degridder has them (degridder.py:139, 237). *)
From Coq Require Import Reals.
From Verif Require Import Prelude CRing CplxR GridModel.
Close Scope R_scope.
Open Scope nat_scope.

Section Rounded.
  Context (fl : R -> R).
  (* lines 203-204, 253: a cell times the kernel values of v and u *)
  Definition cell_rounded (z : RC) (conv_v conv_u : R) : RC := (fl (fl (fst z * conv_v) * conv_u), fl (fl (snd z * conv_v) * conv_u))%R.
  (* stokes_conversion_policies.py:11-135: what is added to a correlation is the value times 1, -1, 1j, -1j or 0, which is exact;
     the addition rounds *)
  Definition add_rounded (to_corr : RC -> arr RC -> arr RC) (z : RC) (out : arr RC) : arr RC :=
    fun i => let d := to_corr z (fun _ => c0) i in (fl (fst (out i) + fst d), fl (snd (out i) + snd d))%R.
  (* lines 172-208, 234-257; eps is 1e-8 as stored *)
  Definition gather_rounded (index : kernel -> Z -> nat -> Z) (eps scaled_u scaled_v : R) (npix : nat) (grid : arr2 RC) (to_corr : RC -> arr RC -> arr RC) (k : kernel) : res (arr RC) :=
    let disc_u := discrete npix scaled_u in
    let disc_v := discrete npix scaled_v in
    let frac_u := fraction npix scaled_u (oversampling k) in
    let frac_v := fraction npix scaled_v (oversampling k) in
    do! (vis, cw) <- forM (width k) (fun tv vc =>
      do! conv_v <- getitem (nsamples k) (samples k) (index k frac_v tv);
      let grid_v_lookup := (disc_v + Z.of_nat tv - Z.of_nat (width k / 2))%Z in
      forM (width k) (fun tu vc =>
        do! conv_u <- getitem (nsamples k) (samples k) (index k frac_u tu);
        let grid_u_lookup := (disc_u + Z.of_nat tu - Z.of_nat (width k / 2))%Z in
        Ok (if inside npix grid_v_lookup && inside npix grid_u_lookup
            then (add_rounded to_corr (cell_rounded (grid (Z.to_nat grid_v_lookup) (Z.to_nat grid_u_lookup)) conv_v conv_u) (fst vc),
                  fl (snd vc + fl (conv_v * conv_u)))
            else vc)) vc) (fun _ => c0, 0%R);
    Ok (fun i => let d := fl (cw + eps) in (fl (fst (vis i) / d), fl (snd (vis i) / d))%R).
End Rounded.
