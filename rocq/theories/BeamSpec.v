(* Specification vocabulary for C34 and C35 *)
From Coq Require Import Reals.
From Verif Require Import Prelude CRing CplxR BeamModel.
Open Scope R_scope.

(* a strictly increasing grid *)
Definition increasing (n : nat) (g : arr R) : Prop := forall i, (S i < n)%nat -> g i < g (S i).
(* how frequency f relates to the grid g of n planes: planes k and k + 1 are used with weights w and 1 - w, and
   coordinates are multiplied by sc *)
Inductive freq_plane (n : nat) (g : arr R) (f : R) : R -> R -> nat -> Prop :=
| below : f < g 0%nat -> freq_plane n g f (f / g 0%nat) 1 0
| above : g (n - 1)%nat <= f -> freq_plane n g f (f / g (n - 1)%nat) 0 (n - 2)
| within k : (S k < n)%nat -> g k <= f < g (S k) -> freq_plane n g f 1 ((g (S k) - f) / (g (S k) - g k)) k.
(* the frequency restricted to the range of the grid *)
Definition clamp (lo hi x : R) : R := Rmax lo (Rmin x hi).

(* linear interpolation basis: 1 at zero distance, 0 from distance one *)
Definition hat (d : R) : R := Rmax 0 (1 - Rabs d).
(* position along an axis of n nodes spanning [lo, hi], clamped to the ends *)
Definition axis_pos (n : nat) (lo hi v : R) : R := clamp 0 (INR n - 1) ((v - lo) * ((INR n - 1) / (hi - lo))).
(* weighted sum of samples: trilinear with node weights hat(x - i), hat(y - j) and (w, 1 - w) on planes k, k + 1 *)
Definition tri {K : cops} (scale : R -> K -> K) (lw mh : nat) (x y w : R) (k : nat) (B : nat -> nat -> nat -> K) : K :=
  csum lw (fun i => csum mh (fun j =>
    scale (hat (x - INR i) * hat (y - INR j)) (cadd (scale w (B i j k)) (scale (1 - w) (B i j (S k)))))).
Definition tri_amp (b : cube) (x y w : R) (k c : nat) : R := tri (K := RR) Rmult (b_lw b) (b_mh b) x y w k (fun i j k => cabs (b_at b i j k c)).
Definition tri_val (b : cube) (x y w : R) (k c : nat) : RC := tri (fun r z => cmul (ofR r) z) (b_lw b) (b_mh b) x y w k (fun i j k => b_at b i j k c).
(* amplitude A with the phase of z; zero if z is zero *)
Definition with_amp (A : R) (z : RC) : RC := if Req_EM_T (cabs z) 0 then c0 else cmul (ofR (A / cabs z)) z.
(* the coordinates at which the beam is read: scaled by sc, offset, rotated by pa, scaled by the antenna factors *)
Definition beam_l (l m sc pe_l pe_m pa as_l : R) : R := as_l * ((sc * l + pe_l) * cos pa - (sc * m + pe_m) * sin pa).
Definition beam_m (l m sc pe_l pe_m pa as_m : R) : R := as_m * ((sc * l + pe_l) * sin pa + (sc * m + pe_m) * cos pa).
