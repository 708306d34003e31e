(* Model of /repo/africanus/deconv/hogbom/clean.py:103-188 with every operation rounded by fl.  find_peak (lines 71-100) only
   compares, which is exact: the model of HogModel.v is used as it is. *)
From Coq Require Import Reals.
From Verif Require Import Prelude CRing CplxR HogModel.
Open Scope R_scope.

Section Rounded.
  Context (fl : R -> R).
  (* lines 103-105 *)
  Definition rbuild_cleanmap (clean : arr2 R) (intensity gamma : R) (p q : nat) : arr2 R := upd2 clean p q (fl (clean p q + fl (intensity * gamma))).
  (* lines 108-112: gamma * intensity is a scalar; its product with the slice and the subtraction are elementwise.  numba
     compiles this without fastmath: nothing is contracted. *)
  Definition rupdate_residual (residual : arr2 R) (intensity gamma : R) (p q npix : nat) (psf : arr2 R) : arr2 R :=
    fun x y => fl (residual x y - fl (fl (gamma * intensity) * psf (npix - 1 - p + x)%nat (npix - 1 - q + y)%nat)).
  (* lines 164-184, as clean_loop *)
  Fixpoint rclean_loop (fuel : nat) (npix : nat) (psf : arr2 R) (gamma threshold : R) (clean residuals : arr2 R) (p q : nat) (intensity : R) : res (arr2 R * arr2 R) :=
    match fuel with
    | O => Ok (clean, residuals)
    | S fuel =>
        if Rlt_dec threshold (Rabs intensity) then
          let clean := rbuild_cleanmap clean intensity gamma p q in
          let residuals := rupdate_residual residuals intensity gamma p q npix psf in
          do! (p, q, _, _, intensity) <- find_peak npix npix residuals;
          rclean_loop fuel npix psf gamma threshold clean residuals p q intensity
        else Ok (clean, residuals)
    end.
  (* lines 115-188; None is "default"; 0.2 is a literal *)
  Definition rhogbom_clean (ny nx : nat) (dirty : arr2 R) (py px : nat) (psf : arr2 R) (gamma : R) (threshold : option R) (niter : option Z) : res (arr2 R * arr2 R) :=
    let residuals := dirty in
    if (negb (Nat.eqb py (2 * ny)) || negb (Nat.eqb px (2 * nx)))%bool then Raise ValueError
    else if negb (Nat.eqb ny nx) then Raise AssertionError
    else
      let npix := ny in
      let niter := match niter with Some n => n | None => (3 * Z.of_nat npix)%Z end in
      do! (p, q, _, _, intensity) <- find_peak npix npix residuals;
      let threshold := match threshold with Some t => fl (t * Rabs intensity) | None => fl (fl (2 / 10) * Rabs intensity) end in
      rclean_loop (Z.to_nat (niter + 1)) npix psf gamma threshold (fun _ _ => 0) residuals p q intensity.
End Rounded.
