(* Phase delays and direct Fourier transforms over an arithmetic that may round.  With exact operations these are phase_delay of
   RimeModel.v and im_to_vis and vis_to_im of DftModel.v (RdftProofs.v).  Dtypes are not distinguished: one arithmetic for all. *)
From Coq Require Import Reals String.
From Verif Require Import Prelude CRing CplxR RimeModel DftModel.
Open Scope R_scope.

(* the operations of the kernels on real numbers, and the constant two_pi_over_c of constants/consts.py:11 *)
Record rops := { radd : R -> R -> R; rsub : R -> R -> R; rmul : R -> R -> R; rsqrt : R -> R; rcos : R -> R; rsin : R -> R; two_pi_c : R }.
Definition exact_ops : rops := {| radd := Rplus; rsub := Rminus; rmul := Rmult; rsqrt := sqrt; rcos := cos; rsin := sin; two_pi_c := two_pi_over_c |}.
(* each operation rounded by fl; the cosine, sine and constant of the machine *)
Definition rounded_ops (fl : R -> R) (fcos fsin : R -> R) (c : R) : rops :=
  {| radd := fun x y => fl (x + y); rsub := fun x y => fl (x - y); rmul := fun x y => fl (x * y); rsqrt := fun x => fl (sqrt x);
     rcos := fcos; rsin := fsin; two_pi_c := c |}.

Section Kernels.
  Context (A : rops).
  (* rime/phase.py:32, dft/kernels.py:47 and 106: what the square root is taken of, and n - 1.  l**2 is compiled to l*l. *)
  Definition radicand (l m : R) : R := rsub A (rsub A 1 (rmul A l l)) (rmul A m m).
  Definition n_minus_1 (l m : R) : R := rsub A (rsqrt A (radicand l m)) 1.
  (* rime/phase.py:38 and 42, dft/kernels.py:50 and 54, 112 and 116 *)
  Definition phase_in (constant l m n u v w freq : R) : R :=
    rmul A (rmul A constant (radd A (radd A (rmul A l u) (rmul A m v)) (rmul A n w))) freq.

  (* rime/phase.py:19-24 *)
  Definition phase_constant_in (convention : string) : res R :=
    if String.eqb convention "fourier" then Ok (- two_pi_c A)
    else if String.eqb convention "casa" then Ok (- - two_pi_c A)
    else Raise ValueError.
  (* rime/phase.py:26-50 *)
  Definition phase_delay_in (nsrc nrow nchan : nat) (lm uvw : arr2 R) (frequency : arr R) (convention : string) : res (arr3 (R * R)) :=
    do! constant <- phase_constant_in convention;
    Ok (for_ nsrc (fun source k =>
          let l := lm source 0%nat in let m := lm source 1%nat in
          let n := n_minus_1 l m in
          for_ nrow (fun row k =>
            let u := uvw row 0%nat in let v := uvw row 1%nat in let w := uvw row 2%nat in
            for_ nchan (fun chan k =>
              let p := phase_in constant l m n u v w (frequency chan) in
              let k1 := upd3 k source row chan (rcos A p, snd (k source row chan)) in
              upd3 k1 source row chan (fst (k1 source row chan), rsin A p)) k) k)
        (fun _ _ _ => (0, 0))).

  (* dft/kernels.py:27-60; the exponential of an imaginary number is its cosine and sine, the product of complex numbers is
     (ac - bd, ad + bc) *)
  Definition times_in (x y : R * R) : R * R :=
    (rsub A (rmul A (fst x) (fst y)) (rmul A (snd x) (snd y)), radd A (rmul A (fst x) (snd y)) (rmul A (snd x) (fst y))).
  Definition plus_in (x y : R * R) : R * R := (radd A (fst x) (fst y), radd A (snd x) (snd y)).
  Definition im_to_vis_in (nrows nsrc nchan ncorr : nat) (image : arr3 (R * R)) (uvw lm : arr2 R) (frequency : arr R) (convention : string) : res (arr3 (R * R)) :=
    do! constant <- (if String.eqb convention "fourier" then Ok (- two_pi_c A)
                     else if String.eqb convention "casa" then Ok (two_pi_c A) else Raise ValueError);
    Ok (for_ nrows (fun r vis =>
      let u := uvw r 0%nat in let v := uvw r 1%nat in let w := uvw r 2%nat in
      for_ nsrc (fun s vis =>
        let l := lm s 0%nat in let m := lm s 1%nat in
        let n := n_minus_1 l m in
        for_ nchan (fun nu vis =>
          let p := phase_in constant l m n u v w (frequency nu) in
          for_ ncorr (fun c vis =>
            if truthy (image s nu c)
            then upd3 vis r nu c (plus_in (vis r nu c) (times_in (rcos A p, rsin A p) (image s nu c)))
            else vis) vis) vis) vis)
      (fun _ _ _ => (0, 0))).
  (* dft/kernels.py:94-130; the shapes agree *)
  Definition vis_to_im_in (nrows nsrc nchan ncorr : nat) (vis : arr3 (R * R)) (uvw lm : arr2 R) (frequency : arr R) (flags : arr3 bool) (convention : string) : res (arr3 R) :=
    do! constant <- (if String.eqb convention "fourier" then Ok (two_pi_c A)
                     else if String.eqb convention "casa" then Ok (- two_pi_c A) else Raise ValueError);
    Ok (for_ nsrc (fun s img =>
      let l := lm s 0%nat in let m := lm s 1%nat in
      let n := n_minus_1 l m in
      for_ nrows (fun r img =>
        let u := uvw r 0%nat in let v := uvw r 1%nat in let w := uvw r 2%nat in
        for_ nchan (fun nu img =>
          let p := phase_in constant l m n u v w (frequency nu) in
          if any_flag ncorr (flags r nu) then img
          else for_ ncorr (fun c img =>
            upd3 img s nu c (radd A (img s nu c) (rsub A (rmul A (rcos A p) (fst (vis r nu c))) (rmul A (rsin A p) (snd (vis r nu c)))))) img) img) img)
      (fun _ _ _ => 0)).
End Kernels.
