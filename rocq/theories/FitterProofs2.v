From Coq Require Import Reals Lra.
From Coq Require Import String Ascii.
From Verif Require Import Prelude CRing CplxR DaskPredictModel ApplyGainsModel ApplyGainsProofs SpiModel SpiSpec SpiProofs SpiProps FftFacts RestoreModel RestoreSpec RestoreProofs FitterModel FitterSpec FitterProofs.
Open Scope list_scope.
Open Scope R_scope.

(* the data that are fitted *)
Definition cut (conv : cube) (m : list (nat * nat)) (beam : option (arr2 R)) (c b : nat) : R :=
  let v := cu_at conv b (fst (nth c m (0, 0)%nat)) (snd (nth c m (0, 0)%nat)) in match beam with None => v | Some bs => v / bs c b end.
Record run (pocket : bool) (fast : option (nat -> nat)) (o : options) (rd : residual) (h : fits_hdr) (M : arr3 R)
    (interp : option (list (nat * nat) -> arr R -> res (arr2 R))) (f : fitted_maps) (emaj emin pa : R) (ax nband : nat) (ref step value : R) (G : arr2 R)
    (conv : cube) (wt : arr R) (out : arr2 R) : Prop := {
  run_beam : beam_given o rd (emaj, emin, pa);
  run_u1 : degrees (cunit1 h); run_u2 : degrees (cunit2 h);
  run_bands : describes_bands h ax nband ref step value;
  run_kern : Gaussian2D (naxis2 h) (naxis1 h) (fun _ j => axis_coord (crpix1 h) (cdelt1 h) j) (fun i _ => axis_coord (crpix2 h) (cdelt2 h) i) emaj emin pa = Ok G;
  run_n1 : nband <> 1%nat; run_n2 : nband <> 2%nat;
  run_conv : conv = convolve_model pocket fast (o_padding o) (naxis2 h) (naxis1 h) M G;
  run_wt : wt = band_weights nband (fun b => cube_std b 1 (naxis2 h) (naxis1 h) (r_data rd));
  run_mask : f_mask f = mask nband conv (o_threshold o * cube_std 0 nband (naxis2 h) (naxis1 h) (r_data rd));
  run_some : f_mask f <> [];
  run_threads : (0 < Nat.div (List.length (f_mask f)) (threads o))%nat;
  run_freqs : f_freqs f = (fun b => value + axis_coord ref step b);
  run_ref : f_ref f = value; run_k : f_kern f = G; run_ax : f_axis f = ax; run_nb : f_nband f = nband;
  run_interp : match interp with None => f_beam f = None | Some g => exists bs, g (f_mask f) (f_freqs f) = Ok bs /\ f_beam f = Some bs end;
  run_out : fit_spi_components (List.length (f_mask f)) nband Float64 (cut conv (f_mask f) (f_beam f)) wt (f_freqs f) value None None None (1 / 10 ^ 5) 100 = Ok out;
  run_alpha : scatter (naxis1 h) (naxis2 h) (f_mask f) (map (out 0%nat) (seq 0 (List.length (f_mask f)))) = Ok (f_alpha f);
  run_i0 : scatter (naxis1 h) (naxis2 h) (f_mask f) (map (out 2%nat) (seq 0 (List.length (f_mask f)))) = Ok (f_i0 f) }.

Lemma cut_is conv m beam : (fun c b => match beam with
  | None => cu_at conv b (fst (nth c m (0, 0)%nat)) (snd (nth c m (0, 0)%nat))
  | Some bs => cu_at conv b (fst (nth c m (0, 0)%nat)) (snd (nth c m (0, 0)%nat)) / bs c b end) = cut conv m beam.
Proof. reflexivity. Qed.

Lemma fit_runs pocket fast o resid h M interp f : spi_fit pocket fast o resid h M interp = Ok f ->
  exists rd emaj emin pa ax nband ref step value G conv wt out, resid = Some rd /\ run pocket fast o rd h M interp f emaj emin pa ax nband ref step value G conv wt out.
Proof.
  intros H. unfold spi_fit in H. destruct resid as [rd|]; [|discriminate].
  match type of H with bind ?x _ = _ => destruct x as [[[emaj emin] pa]|] eqn:EB; [|discriminate] end. cbn [bind] in H.
  destruct (is_degrees (cunit1 h)) eqn:U1; [|discriminate]. destruct (is_degrees (cunit2 h)) eqn:U2; [|discriminate]. cbn [negb] in H. cbv zeta in H.
  destruct (freq_axis h) as [[[[[ax nband] ref] step] value]|] eqn:EF; [|discriminate]. cbn [bind] in H.
  match type of H with bind ?x _ = _ => destruct x as [G|] eqn:EG; [|discriminate] end. cbn [bind] in H.
  destruct (Nat.eqb_spec nband 1) as [|N1]; [discriminate|].
  match type of H with match ?x with [] => _ | _ => _ end = _ => remember x as ms eqn:EM; destruct ms as [|q qs] eqn:EMS; [discriminate|] end. rewrite <- EMS in *. 
  match type of H with bind ?x _ = _ => destruct x as [beam|] eqn:EI; [|discriminate] end. cbn [bind] in H.
  destruct (Nat.eqb_spec (Nat.div (List.length ms) (threads o)) 0) as [|SZ]; [discriminate|].
  rewrite cut_is in H.
  set (conv := convolve_model pocket fast (o_padding o) (naxis2 h) (naxis1 h) M G) in *.
  set (wt := band_weights nband (fun b => cube_std b 1 (naxis2 h) (naxis1 h) (r_data rd))) in *.
  set (fr := fun b => value + axis_coord ref step b) in *.
  destruct (Nat.eq_dec nband 2) as [N2|N2].
  { exfalso. subst nband. assert (L : exists k, List.length ms = S k) by (rewrite EMS; eexists; reflexivity). destruct L as [k L]. rewrite L in H. cbn [seq] in H.
    erewrite mapM_raise in H; [discriminate|].
    set (sz := Nat.div (S k) (threads o)) in *. assert (SZ' : (0 < sz)%nat) by (unfold sz; rewrite L in SZ; lia).
    unfold dask_fit at 1. pose proof (sizes_length (S k) sz 0 SZ') as LE.
    destruct (chunk_sizes (S k) sz) as [|c0 cs] eqn:EC; [exfalso; cbn [List.length] in LE; rewrite Nat.mul_0_l in LE; lia|].
    assert (C0 : (0 < c0)%nat). { pose proof (sizes_nth (S k) sz 0 SZ') as T. rewrite EC in T. cbn in T. lia. }
    cbn [DftModel.locate hd]. rewrite Nat.add_0_l. destruct (Nat.ltb_spec 0 c0); [|lia]. 
    assert (TOL : 1 / 10 ^ 5 < 1) by (cbn; lra). rewrite (proj2 (proj2 (C56_raises c0 2 Float64 _ _ _ _ _ _ _ (1 / 10 ^ 5) 100 C0)) ltac:(discriminate) TOL ltac:(lia) eq_refl). reflexivity. }
  destruct (vals_all (List.length ms) (Nat.div (List.length ms) (threads o)) nband (cut conv ms beam) wt fr value ltac:(lia) N2) as [out [EO EV]].
  rewrite EV in H. cbn [bind] in H. rewrite !map_map in H. cbn [fst snd] in H.
  match type of H with bind ?x _ = _ => destruct x as [am|] eqn:EA; [|discriminate] end. cbn [bind] in H.
  match type of H with bind ?x _ = _ => destruct x as [im|] eqn:EI0; [|discriminate] end. cbn [bind] in H. injection H as <-.
  exists rd, emaj, emin, pa, ax, nband, ref, step, value, G, conv, wt, out. split; [reflexivity|]. constructor; cbn [f_mask f_freqs f_ref f_kern f_axis f_nband f_beam f_alpha f_i0]; try reflexivity; try assumption.
  - unfold beam_given. destruct (o_beampars o) as [[|x [|y [|z [|? ?]]]]|]; try discriminate.
    + injection EB as <- <- <-. now right.
    + destruct (r_beam rd) as [b|]; [|discriminate]. injection EB as ->. now left.
  - now apply is_degrees_spec.
  - now apply is_degrees_spec.
  - now apply axis_bands.
  - rewrite EMS. discriminate.
  - lia.
  - destruct interp as [g|]; [|now injection EI as <-]. destruct (g ms fr) as [bs|] eqn:EGB; [|discriminate]. cbn [bind] in EI. injection EI as <-. now exists bs.
Qed.
