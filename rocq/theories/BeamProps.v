(* C34 and C35: beam cubes *)
From Coq Require Import Reals Lra.
From Verif Require Import Prelude CRing CplxR DftModel BeamModel BeamSpec BeamProofs BeamProofs2 BeamProofs3.
Open Scope R_scope.

(* The search finds the two planes around the frequency; outside the grid it takes the end planes and a scale factor. *)
Theorem C34_bracket : forall n g f, (2 <= n)%nat -> increasing n g ->
  exists sc w k, freq_grid_interp n g f = (sc, w, Z.of_nat k) /\ freq_plane n g f sc w k /\ (S k < n)%nat.
Proof. exact freq_grid_spec. Qed.
(* Only one answer fits. *)
Theorem C34_unique : forall n g f sc w k sc' w' k', (2 <= n)%nat -> increasing n g ->
  freq_plane n g f sc w k -> freq_plane n g f sc' w' k' -> sc = sc' /\ w = w' /\ k = k'.
Proof. exact freq_plane_unique. Qed.
(* The planes exist, the weights lie in [0, 1] and reproduce the frequency, clamped to the grid; the scale undoes the clamp. *)
Theorem C34_interpolates : forall n g f sc w k, (2 <= n)%nat -> increasing n g -> freq_grid_interp n g f = (sc, w, k) ->
  (0 <= k)%Z /\ (k + 1 < Z.of_nat n)%Z /\ 0 <= w <= 1 /\ w * g (Z.to_nat k) + (1 - w) * g (Z.to_nat (k + 1)) = clamp (g 0%nat) (g (n - 1)%nat) f /\
  (0 < g 0%nat -> sc * clamp (g 0%nat) (g (n - 1)%nat) f = f) /\ (g 0%nat <= f <= g (n - 1)%nat -> 0 < g 0%nat -> sc = 1).
Proof. exact grid_facts. Qed.
Print Assumptions C34_bracket.
Print Assumptions C34_unique.
Print Assumptions C34_interpolates.
(* planes at 1, 2, 4 *)
Definition ex_grid : arr R := fun i => match i with O => 1 | 1%nat => 2 | 2%nat => 4 | _ => 0 end.
Lemma ex_grid_inc : increasing 3 ex_grid.
Proof. intros [|[|i]] H; cbn; try lra. lia. Qed.
Example ex_bracket : freq_plane 3 ex_grid 3 1 (1 / 2) 1.
Proof. replace (1 / 2) with ((ex_grid 2%nat - 3) / (ex_grid 2%nat - ex_grid 1%nat)) by (cbn; field). apply within; [lia|cbn; lra]. Qed.
Example ex_above : freq_plane 3 ex_grid 8 2 0 1.
Proof. replace 2 with (8 / ex_grid (3 - 1)%nat) by (cbn; field). apply (above 3 ex_grid 8). cbn. lra. Qed.

(* No sample outside the cube is read, and the result has the interpolated amplitude and the interpolated phase. *)
Theorem C35_value : forall b ext g, (2 <= b_lw b)%nat -> (2 <= b_mh b)%nat -> (2 <= b_nud b)%nat -> increasing (b_nud b) g ->
  forall nsrc lm nt na pa pe asc nf fr, exists out, beam_cube_dde b ext (b_nud b) g nsrc lm nt na pa pe asc nf fr = Ok out /\
  forall s t a f c, (s < nsrc)%nat -> (t < nt)%nat -> (a < na)%nat -> (f < nf)%nat -> exists sc w k, freq_plane (b_nud b) g (fr f) sc w k /\ (S k < b_nud b)%nat /\
    let x := axis_pos (b_lw b) (ext 0 0)%nat (ext 0 1)%nat (beam_l (lm s 0%nat) (lm s 1%nat) sc (pe t a f 0%nat) (pe t a f 1%nat) (pa t a) (asc a f 0%nat)) in
    let y := axis_pos (b_mh b) (ext 1 0)%nat (ext 1 1)%nat (beam_m (lm s 0%nat) (lm s 1%nat) sc (pe t a f 0%nat) (pe t a f 1%nat) (pa t a) (asc a f 1%nat)) in
    out s t a f c = with_amp (tri_amp b x y w k c) (tri_val b x y w k c).
Proof. exact dde_value. Qed.
(* The node weights along each axis are non-negative and add to one. *)
Theorem C35_weights : forall n lo hi v, (1 <= n)%nat ->
  (forall i, 0 <= hat (axis_pos n lo hi v - INR i) <= 1) /\ csum (K := RR) n (fun i => hat (axis_pos n lo hi v - INR i)) = 1.
Proof. intros n lo hi v H. split; [intros i; split; [apply hat_pos|apply hat_le1]|]. apply hat_sum; auto. now apply axis_pos_range. Qed.
(* Amplitudes stay between the smallest and largest amplitude of the cube, unless the samples cancel. *)
Theorem C35_bounds : forall b ext g nsrc lm nt na pa pe asc nf fr, (2 <= b_lw b)%nat -> (2 <= b_mh b)%nat -> (2 <= b_nud b)%nat -> increasing (b_nud b) g ->
  exists out, beam_cube_dde b ext (b_nud b) g nsrc lm nt na pa pe asc nf fr = Ok out /\
  forall s t a f c lo hi, (s < nsrc)%nat -> (t < nt)%nat -> (a < na)%nat -> (f < nf)%nat ->
    (forall i j p, (i < b_lw b)%nat -> (j < b_mh b)%nat -> (p < b_nud b)%nat -> lo <= cabs (b_at b i j p c) <= hi) ->
    cabs (out s t a f c) <= hi /\ (out s t a f c = c0 \/ lo <= cabs (out s t a f c)).
Proof. exact dde_bounds. Qed.
(* On a node of the cube the sample itself is returned. *)
Theorem C35_node : forall b ext g nsrc lm nt na pa pe asc nf fr, (2 <= b_lw b)%nat -> (2 <= b_mh b)%nat -> (2 <= b_nud b)%nat -> increasing (b_nud b) g -> 0 < g 0%nat ->
  exists out, beam_cube_dde b ext (b_nud b) g nsrc lm nt na pa pe asc nf fr = Ok out /\
  forall s t a f c i j p, (s < nsrc)%nat -> (t < nt)%nat -> (a < na)%nat -> (f < nf)%nat -> (i < b_lw b)%nat -> (j < b_mh b)%nat -> (p < b_nud b)%nat ->
    fr f = g p ->
    axis_pos (b_lw b) (ext 0 0)%nat (ext 0 1)%nat (beam_l (lm s 0%nat) (lm s 1%nat) 1 (pe t a f 0%nat) (pe t a f 1%nat) (pa t a) (asc a f 0%nat)) = INR i ->
    axis_pos (b_mh b) (ext 1 0)%nat (ext 1 1)%nat (beam_m (lm s 0%nat) (lm s 1%nat) 1 (pe t a f 0%nat) (pe t a f 1%nat) (pa t a) (asc a f 1%nat)) = INR j ->
    out s t a f c = b_at b i j p c.
Proof. exact dde_node. Qed.
(* A cube with fewer than two samples along some axis is refused. *)
Theorem C35_small_cube : forall b ext nmap g nsrc lm nt na pa pe asc nf fr, (b_lw b < 2 \/ b_mh b < 2 \/ b_nud b < 2)%nat ->
  beam_cube_dde b ext nmap g nsrc lm nt na pa pe asc nf fr = Raise ValueError.
Proof. exact dde_small. Qed.
(* The length of the frequency map is not compared with the cube: with a longer map the code reads outside the cube. *)
Theorem C35_long_map_refuted : forall b ext nmap g lm pa pe asc fr, (2 <= b_lw b)%nat -> (2 <= b_mh b)%nat -> (2 <= b_nud b)%nat -> (b_nud b < nmap)%nat -> increasing nmap g ->
  g (nmap - 1)%nat <= fr 0%nat -> beam_cube_dde b ext nmap g 1 lm 1 1 pa pe asc 1 fr = Raise IndexError.
Proof. exact dde_long_map. Qed.
(* Chunking sources, times, antennas and channels does not change the result; a chunked beam is refused. *)
Theorem C35_chunks : forall b ext g, (2 <= b_lw b)%nat -> (2 <= b_mh b)%nat -> (2 <= b_nud b)%nat -> increasing (b_nud b) g ->
  forall bc mc ec src times ants chans lm pa pe asc fr,
  (forall c, In c bc -> List.length c = 1%nat) -> (forall c, In c mc -> List.length c = 1%nat) -> (forall c, In c ec -> List.length c = 1%nat) ->
  exists out blocks, beam_cube_dde b ext (b_nud b) g (list_sum src) lm (list_sum times) (list_sum ants) pa pe asc (list_sum chans) fr = Ok out /\
    dask_beam_cube_dde bc mc ec src times ants chans b ext (b_nud b) g lm pa pe asc fr = Ok blocks /\
    forall s t a f, (s < list_sum src)%nat -> (t < list_sum times)%nat -> (a < list_sum ants)%nat -> (f < list_sum chans)%nat -> blocks s t a f = Ok (out s t a f).
Proof. exact dde_chunks. Qed.
Theorem C35_chunked_beam : forall bc mc ec src times ants chans b ext nmap g lm pa pe asc fr,
  (exists c, (In c bc \/ In c mc \/ In c ec) /\ List.length c <> 1%nat) ->
  dask_beam_cube_dde bc mc ec src times ants chans b ext nmap g lm pa pe asc fr = Raise ValueError.
Proof. exact dask_chunked. Qed.
Print Assumptions C35_value.
Print Assumptions C35_weights.
Print Assumptions C35_bounds.
Print Assumptions C35_node.
Print Assumptions C35_small_cube.
Print Assumptions C35_long_map_refuted.
Print Assumptions C35_chunks.
Print Assumptions C35_chunked_beam.
(* a cube of three samples per axis *)
Definition ex_cube : cube := {| b_lw := 3; b_mh := 3; b_nud := 3; b_at := fun i j p c => (INR (i + j + p + c), 1) |}.
Example ex_sizes : (2 <= b_lw ex_cube)%nat /\ (2 <= b_mh ex_cube)%nat /\ (2 <= b_nud ex_cube)%nat /\ increasing (b_nud ex_cube) ex_grid /\ 0 < ex_grid 0%nat.
Proof. cbn. repeat split; try lia; try lra. apply ex_grid_inc. Qed.
Example ex_at_node : axis_pos 3 (-1) 1 (beam_l 1 0 1 0 0 0 1) = INR 2 /\ axis_pos 3 (-1) 1 (beam_m 1 0 1 0 0 0 1) = INR 1.
Proof.
  unfold axis_pos, clamp, beam_l, beam_m. rewrite sin_0, cos_0. cbn [INR]. split.
  - replace ((1 * ((1 * 1 + 0) * 1 - (1 * 0 + 0) * 0) - -1) * ((1 + 1 + 1 - 1) / (1 - -1))) with 2 by field.
    rewrite Rmin_left by lra. apply Rmax_right. lra.
  - replace ((1 * ((1 * 1 + 0) * 0 + (1 * 0 + 0) * 1) - -1) * ((1 + 1 + 1 - 1) / (1 - -1))) with 1 by field.
    rewrite Rmin_left by lra. apply Rmax_right. lra.
Qed.
