(* What the rounding theorems of C120 say: calibrated visibilities in arithmetic that rounds. *)
From Coq Require Import Reals.
From Verif Require Import Prelude CRing CField CplxR CplxF PredictModel CalModel RoundModel RoundSpec.
Open Scope R_scope.

(* complex arithmetic that rounds, with any division *)
Definition rounded_field (fl : R -> R) (dv : R * R -> R * R -> R * R) (iv : R * R -> R * R) : fops :=
  {| fcar := rounded fl; fdiv := dv : rounded fl -> rounded fl -> rounded fl; finv := iv : rounded fl -> rounded fl |}.
(* the real numbers, for the sizes *)
Definition RRF : fops := {| fcar := RR; fdiv := Rdiv : RR -> RR -> RR; finv := Rinv : RR -> RR |}.

(* the same arguments with other numbers in their place *)
Section Values.
  Context {F F' : fops} (h : F -> F').
  Definition map_gain (g : gain_arr F) : gain_arr F' :=
    {| j_ndim := j_ndim g; j_tim := j_tim g; j_chan := j_chan g; j_dir := j_dir g; j_at := fun t a f s i j => h (j_at g t a f s i j) |}.
  Definition map_model (m : model_arr F) : model_arr F' :=
    {| m_ndim := m_ndim m; m_row := m_row m; m_chan := m_chan m; m_dir := m_dir m; m_corr := m_corr m;
       m_at := fun r f s i j => h (m_at m r f s i j) |}.
End Values.

(* the arguments as the machine sees them, and the sizes of their entries *)
Section Stored.
  Context (fl : R -> R) (dv : R * R -> R * R -> R * R) (iv : R * R -> R * R).
  Definition stored_gain (g : gain_arr RCF) : gain_arr (rounded_field fl dv iv) := map_gain (F := RCF) (F' := rounded_field fl dv iv) (fun z => z) g.
  Definition stored_model (m : model_arr RCF) : model_arr (rounded_field fl dv iv) := map_model (F := RCF) (F' := rounded_field fl dv iv) (fun z => z) m.
  Definition stored_vis (v : vis_arr RCF) : vis_arr (rounded_field fl dv iv) := map_vis (K := RCF) (K' := rounded_field fl dv iv) (fun z => z) v.
End Stored.
Definition size_gain (g : gain_arr RCF) : gain_arr RRF := map_gain (F := RCF) (F' := RRF) size g.
Definition size_model (m : model_arr RCF) : model_arr RRF := map_model (F := RCF) (F' := RRF) size m.

(* one row, one channel, one correlation; gains of one, and one model per direction *)
Definition unit_gains (nd : nat) : gain_arr RCF :=
  {| j_ndim := 5; j_tim := 1; j_chan := 1; j_dir := nd; j_at := fun _ _ _ _ _ _ => ((1, 0) : RCF) |}.
Definition directions (l : list R) : model_arr RCF :=
  {| m_ndim := 4; m_row := 1; m_chan := 1; m_dir := length l; m_corr := 1; m_at := fun _ _ s _ _ => ((nth s l 0, 0) : RCF) |}.
