(* Specification vocabulary for C56: weighted least squares for a power law spectrum *)
From Coq Require Import Reals.
From Verif Require Import Prelude.
Open Scope R_scope.

Fixpoint total (n : nat) (f : nat -> R) : R := match n with O => 0 | S n' => total n' f + f n' end.
(* the spectrum at channel v of a source of index a and intensity i: beam b, relative frequencies w *)
Definition spectrum (w b : arr R) (a i : R) (v : nat) : R := i * (b v * Rpower (w v) a).
(* its derivatives in the index and in the intensity *)
Definition by_index (w b : arr R) (a i : R) (v : nat) : R := spectrum w b a i v * ln (w v).
Definition by_intensity (w b : arr R) (a : R) (v : nat) : R := b v * Rpower (w v) a.
Definition inner (n : nat) (wt x y : arr R) : R := total n (fun v => x v * wt v * y v).
Definition misfit (d w b : arr R) (a i : R) (v : nat) : R := d v - spectrum w b a i v.
Definition chi2 (n : nat) (d wt w b : arr R) (a i : R) : R := inner n wt (misfit d w b a i) (misfit d w b a i).
(* the normal matrix and the right hand side *)
Definition h_aa n wt w b a i := inner n wt (by_index w b a i) (by_index w b a i).
Definition h_ai n wt w b a i := inner n wt (by_index w b a i) (by_intensity w b a).
Definition h_ii n wt w b a := inner n wt (by_intensity w b a) (by_intensity w b a).
Definition g_a n d wt w b a i := inner n wt (by_index w b a i) (misfit d w b a i).
Definition g_i n d wt w b a i := inner n wt (by_intensity w b a) (misfit d w b a i).
Definition det n wt w b a i : R := h_aa n wt w b a i * h_ii n wt w b a - h_ai n wt w b a i ^ 2.
Definition floored (mindet x : R) : R := Rmax x mindet.
(* the Gauss-Newton step, with a floor under the determinant *)
Definition newton (n : nat) (d wt w b : arr R) (mindet : R) (p : R * R) : R * R :=
  let '(a, i) := p in
  let D := floored mindet (det n wt w b a i) in
  (a + (h_ii n wt w b a * g_a n d wt w b a i - h_ai n wt w b a i * g_i n d wt w b a i) / D,
   i + (h_aa n wt w b a i * g_i n d wt w b a i - h_ai n wt w b a i * g_a n d wt w b a i) / D).
Definition change (p q : R * R) : R := Rmax (Rabs (fst q - fst p)) (Rabs (snd q - snd p)).
(* the two normal equations for the step from p to q *)
Definition solves_normal_equations (n : nat) (d wt w b : arr R) (p q : R * R) : Prop :=
  let '(a, i) := p in let da := fst q - a in let di := snd q - i in
  h_aa n wt w b a i * da + h_ai n wt w b a i * di = g_a n d wt w b a i /\
  h_ai n wt w b a i * da + h_ii n wt w b a * di = g_i n d wt w b a i.
(* the beam, one if not given *)
Definition beam_or_1 (beam : option (arr2 R)) (c v : nat) : R := match beam with Some b => b c v | None => 1 end.
(* the first of the channels nearest to freq0 *)
Definition nearest (n : nat) (freqs : arr R) (freq0 : R) (k : nat) : Prop :=
  (k < n)%nat /\ forall v, (v < n)%nat -> Rabs (freqs k - freq0) <= Rabs (freqs v - freq0) /\ ((v < k)%nat -> Rabs (freqs k - freq0) < Rabs (freqs v - freq0)).
(* where the iteration starts: the given values, or index -0.7 and the intensity of the nearest channel *)
Definition starts_at (n : nat) (data : arr2 R) (freqs : arr R) (freq0 : R) (alphai I0i : option (arr R)) (beam : option (arr2 R)) (c : nat) (p : R * R) : Prop :=
  fst p = match alphai with Some a => a c | None => - (7 / 10) end /\
  match I0i with Some i => snd p = i c | None => exists k, nearest n freqs freq0 k /\ snd p = data c k / beam_or_1 beam c k end.
