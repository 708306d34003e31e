(* Properties C11-C17: row, row/channel and channel averaging.
   Vocabulary: AvgSpec.v, AvgSpec2.v.  The arithmetic is abstract (no laws) except
   in the conservation theorems. *)
From Coq Require Import QArith QArith.Qcanon.
From Verif Require Import Prelude PreludeFacts AvgModel AvgModel2 AvgSpec AvgSpec2 QcArith QcFacts
     AvgProofs3 AvgProofs4 AvgProofs5 AvgProofs6 AvgProofs7.
Close Scope Qc_scope. Close Scope Q_scope.
Open Scope nat_scope.

(* weight of a row sample in the sigma sums: the row weight if supplied *)
Definition row_weight (K : farith) (x : row_cols K) (i co : nat) : option (fnum K) :=
  match in_weight K x with Some (_, w) => Some (w i co) | None => None end.

(* ------------------------------------------------------------------ C11 *)
Theorem C11_row_average K n out_rows rmap oflag ant1 ant2 flag_row x ant_init :
  (forall i j, i < n -> j < n -> rmap i = rmap j -> same_baseline ant1 ant2 i j) ->
  let out := row_average K n out_rows rmap oflag ant1 ant2 flag_row x ant_init in
  let sum := lsum (A := nat) (fadd K) (f0 K) in
  (* antennas are those of every contributing row *)
  (forall i, i < n -> rmap i < out_rows ->
     ra_ant1 K out (rmap i) = ant1 i /\ ra_ant2 K out (rmap i) = ant2 i) /\
  (forall k, k < out_rows -> exists l,
     ascending n (fun i => rmap i = k /\ contributes flag_row oflag i k) l /\
     (l <> [] ->
      (forall u c, in_uvw K x = Some u -> c < 3 ->
         rc_uvw K (ra_cells K out k) c = fdivn K (sum (fun i => u i c) l) (length l)) /\
      (forall t, in_tc K x = Some t ->
         rc_tc K (ra_cells K out k) = fdivn K (sum t l) (length l)) /\
      (forall nc s co, in_sigma K x = Some (nc, s) -> co < nc ->
         let num := sum (fun i => weighted2 K (s i co) (row_weight K x i co)) l in
         let den := sum (fun i => weight_or_1 K (row_weight K x i co)) l in
         rc_sigma K (ra_cells K out k) co =
           fsqrt K (if fnonzero K den then fdiv K num (sq K den) else num))) /\
     (forall e, in_exp K x = Some e -> rc_exp K (ra_cells K out k) = sum e l) /\
     (forall nc w co, in_weight K x = Some (nc, w) -> co < nc ->
         rc_weight K (ra_cells K out k) co = sum (fun i => w i co) l)).
Proof. exact (row_average_spec K n out_rows rmap oflag ant1 ant2 flag_row x ant_init). Qed.
Print Assumptions C11_row_average.

(* rational demo arithmetic (sqrt stands for itself: identity is never unfolded by
   the theorems) *)
Definition q (z : Z) : Qc := Q2Qc (inject_Z z).
Definition dK := QcK (fun x => x).
(* three rows into two output rows; row 1 is flagged while its output row is not *)
Definition ex_rmap : arr nat := of_list 0 [0; 0; 1].
Definition ex_rows : row_cols dK :=
  {| in_tc := Some (of_list (q 0 : fnum dK) (map q [1; 50; 7]%Z));
     in_exp := Some (of_list (q 0) (map q [2; 3; 4]%Z));
     in_uvw := Some (fun i c => q (Z.of_nat (10 * i + c)));
     in_weight := Some (1, fun i _ => q (Z.of_nat (i + 2)));
     in_sigma := Some (1, fun i _ => q 3) |}.
Example C11_example :
  let out := row_average dK 3 2 ex_rmap (Some (fun _ => 0%Z)) (fun _ => 4%Z) (fun i => Z.of_nat (ex_rmap i))
                         (Some (of_list 0%Z [0; 1; 0]%Z)) ex_rows (fun _ => 99%Z) in
  to_list 2 (ra_ant2 dK out) = [0; 1]%Z /\
  to_list 2 (fun k => this (rc_tc dK (ra_cells dK out k))) = [1#1; 7#1]%Q /\
  to_list 2 (fun k => this (rc_exp dK (ra_cells dK out k))) = [2#1; 4#1]%Q /\
  to_list 2 (fun k => this (rc_sigma dK (ra_cells dK out k) 0)) = [9#1; 9#1]%Q.
Proof. vm_compute. repeat split. Qed.

(* ------------------------------------------------------------------ C12 *)
Theorem C12_row_chan_average K n nchan ncorr orows ochans rmap cmap flag_row oflag x out :
  row_chan_average K n nchan ncorr orows ochans rmap cmap flag_row oflag x = Ok out ->
  forall r f c, r < orows -> f < ochans -> c < ncorr ->
  exists lu lf l,
    (* the unflagged and the flagged contributing samples *)
    ascending2 n nchan (fun i ch => rmap i = r /\ cmap ch = f /\
        contributes flag_row oflag i r /\ ~ sample_flagged K x i ch c) lu /\
    ascending2 n nchan (fun i ch => rmap i = r /\ cmap ch = f /\
        contributes flag_row oflag i r /\ sample_flagged K x i ch c) lf /\
    l <> [] /\
    (lu <> [] /\ l = lu /\ oc_flag K (out r f c) = 0%Z \/
     lu = [] /\ l = lf /\ oc_flag K (out r f c) = 1%Z) /\
    let w p := sample_weight K x (fst p) (snd p) c in
    let wsum := lsum (fadd K) (f0 K) (fun p => weight_or_1 K (w p)) l in
    (forall v, in_vis K x = Some v ->
       let total := lsum (cadd K) (c0 K) (fun p => weighted K (v (fst p) (snd p) c) (w p)) l in
       oc_vis K (out r f c) =
         if fnonzero K wsum then cdiv K total wsum
         else match lu with [] => c0 K | _ => total end) /\
    (forall ws, in_wspec K x = Some ws ->
       oc_wspec K (out r f c) = lsum (fadd K) (f0 K) (fun p => ws (fst p) (snd p) c) l) /\
    (forall s, in_sspec K x = Some s ->
       let total := lsum (fadd K) (f0 K)
                         (fun p => weighted2 K (s (fst p) (snd p) c) (w p)) l in
       oc_sspec K (out r f c) =
         if fnonzero K wsum then fsqrt K (fdiv K total (sq K wsum))
         else match lu with [] => f0 K | _ => total end).
Proof. exact (row_chan_average_spec K n nchan ncorr orows ochans rmap cmap flag_row oflag x out). Qed.
Print Assumptions C12_row_chan_average.

(* two rows, three channels binned as {0,1},{2}, one correlation *)
Definition ex_cells : chan_cols dK :=
  {| in_rweight := None;
     in_vis := Some (fun i ch _ => (q (Z.of_nat (10 * i + ch)), q 1) : cnum dK);
     in_flag := Some (fun i ch _ => if Nat.eqb ch 2 then 1%Z else if Nat.eqb i 1 then 1%Z else 0%Z);
     in_wspec := Some (fun i ch _ => q (Z.of_nat (1 + ch)));
     in_sspec := Some (fun _ _ _ => q 1) |}.
Definition ex_cmap : arr nat := fst (channel_mapper 3 2).
Definition show {A} (o : res (arr3 A)) : list A :=
  match o with Ok a => [a 0 0 0; a 0 1 0] | Raise _ => [] end.
Example C12_example :
  map (fun c => (this (fst (oc_vis dK c)), this (snd (oc_vis dK c)), oc_flag dK c, this (oc_wspec dK c)))
      (show (row_chan_average dK 2 3 1 1 2 (fun _ => 0) ex_cmap None None ex_cells)) =
  [(2#3, 1#1, 0%Z, 3#1); (7#1, 1#1, 1%Z, 6#1)]%Q.
Proof. vm_compute. reflexivity. Qed.

(* ------------------------------------------------------------------ C13 *)
(* row_chan_average raises (and then raises "Zero-filled bin") exactly when some
   output cell receives no contributing sample *)
Theorem C13_zero_filled_iff K n nchan ncorr orows ochans rmap cmap flag_row oflag x :
  (forall e, row_chan_average K n nchan ncorr orows ochans rmap cmap flag_row oflag x = Raise e ->
             e = ZeroFilledBin) /\
  ((exists out, row_chan_average K n nchan ncorr orows ochans rmap cmap flag_row oflag x = Ok out) <->
   (forall r f c, r < orows -> f < ochans -> c < ncorr ->
      exists i ch, i < n /\ ch < nchan /\ rmap i = r /\ cmap ch = f /\ contributes flag_row oflag i r)).
Proof.
  split; [intros e; apply normalise_exn|].
  symmetry. exact (row_chan_average_raises K n nchan ncorr orows ochans rmap cmap flag_row oflag x).
Qed.
Print Assumptions C13_zero_filled_iff.

(* time_and_channel never raises "Zero-filled bin" (nor anything else) once extents
   and flags are consistent, rows distinct and row flags 0/1 *)
Theorem C13_time_and_channel_total F (OK : arith_ok F) K (t : tc_input F K) ant_init nc fr :
  int32_col (t_n F K t) (t_ant1 F K t) -> int32_col (t_n F K t) (t_ant2 F K t) ->
  sentinel_above F (t_n F K t) (t_time F K t) -> 0 < t_bin_size F K t ->
  chan_corrs (t_vis_sh F K t) (t_flag_sh F K t) (t_ws_sh F K t) (t_ss_sh F K t)
     (dims K (t_freq F K t)) (dims K (t_width F K t)) (dims K (t_ebw F K t)) (dims K (t_res F K t)) = Ok nc ->
  merge_flags (t_n F K t) (fst (flag_ext F K t)) (snd (flag_ext F K t))
     (t_flag_row F K t) (in_flag K (t_cells F K t)) = Ok fr ->
  rows_distinct (t_n F K t) (t_time F K t) (t_ant1 F K t) (t_ant2 F K t) ->
  (forall f, t_flag_row F K t = Some f -> forall i, i < t_n F K t -> f i = 0%Z \/ f i = 1%Z) ->
  exists out, time_and_channel F K t ant_init = Ok out.
Proof.
  intros H1 H2 HS Hb Ec Em HD H01.
  exact (time_and_channel_total F OK K t ant_init H1 H2 HS Hb nc fr Ec Em HD H01).
Qed.
Print Assumptions C13_time_and_channel_total.

(* an averaged cell is flagged exactly when every input sample mapped to it is *)
Theorem C13_cell_flag_iff_all F (OK : arith_ok F) K (t : tc_input F K) ant_init out fl nc sh :
  int32_col (t_n F K t) (t_ant1 F K t) -> int32_col (t_n F K t) (t_ant2 F K t) ->
  sentinel_above F (t_n F K t) (t_time F K t) -> 0 < t_bin_size F K t ->
  time_and_channel F K t ant_init = Ok out ->
  in_flag K (t_cells F K t) = Some fl ->
  chan_corrs (t_vis_sh F K t) (t_flag_sh F K t) (t_ws_sh F K t) (t_ss_sh F K t)
     (dims K (t_freq F K t)) (dims K (t_width F K t)) (dims K (t_ebw F K t)) (dims K (t_res F K t)) = Ok nc ->
  t_flag_sh F K t = Some sh -> fst nc <= fst sh ->
  forall r f c, r < rm_out_rows F (to_rows F K out) -> f < to_out_chans F K out -> c < snd sh ->
    (oc_flag K (to_cells F K out r f c) = 0%Z \/ oc_flag K (to_cells F K out r f c) = 1%Z) /\
    (oc_flag K (to_cells F K out r f c) = 1%Z <->
     forall i ch, i < t_n F K t -> ch < fst nc -> rm_map F (to_rows F K out) i = r ->
                  ch / t_bin_size F K t = f -> fl i ch c <> 0%Z).
Proof.
  intros H1 H2 HS Hb E Efl Ec Esh Hle.
  exact (cell_flag_iff F OK K t ant_init H1 H2 HS Hb out fl E Efl nc sh Ec Esh Hle).
Qed.
Print Assumptions C13_cell_flag_iff_all.

(* a complete, consistent input: 3 rows of one baseline, 3 channels, 1 correlation *)
Definition ex_t (fr : option (arr Z)) (fl : option (arr3 Z)) : tc_input (QcF (q 1000)) dK :=
  {| t_n := 3; t_time := of_list (q 0) (map q [0; 1; 9]%Z) : arr (num (QcF (q 1000)));
     t_interval := fun _ => q 1;
     t_ant1 := fun _ => 0%Z; t_ant2 := fun _ => 1%Z;
     t_flag_row := fr;
     t_rows := {| in_tc := None; in_exp := None; in_uvw := None; in_weight := None; in_sigma := None |};
     t_cells := {| in_rweight := None; in_vis := Some (fun i ch _ => (q (Z.of_nat (i + ch)), q 0) : cnum dK);
                   in_flag := fl; in_wspec := None; in_sspec := None |};
     t_vis_sh := Some (3, 1); t_flag_sh := match fl with Some _ => Some (3, 1) | None => None end;
     t_ws_sh := None; t_ss_sh := None;
     t_freq := None; t_width := None; t_ebw := None; t_res := None;
     t_secs := q 2; t_bin_size := 2 |}.
Definition ex_flags : arr3 Z := fun i ch _ => if Nat.eqb i 1 then 1%Z else if Nat.ltb ch 2 then 0%Z else 7%Z.
(* rows 0 and 1 share output row 0; row 1 is fully flagged *)
Example C13_example :
  match time_and_channel _ _ (ex_t None (Some ex_flags)) (fun _ => 0%Z) with
  | Ok o => (rm_out_rows _ (to_rows _ _ o),
             map (fun p => oc_flag dK (to_cells _ _ o (fst p) (snd p) 0)) [(0, 0); (0, 1); (1, 0); (1, 1)])
  | Raise _ => (0, [])
  end = (2, [0; 1; 0; 1]%Z).
Proof. vm_compute. reflexivity. Qed.
Example C13_hypotheses :
  let t := ex_t None (Some ex_flags) in
  int32_col 3 (t_ant1 _ _ t) /\ int32_col 3 (t_ant2 _ _ t) /\
  sentinel_above (QcF (q 1000)) 3 (t_time _ _ t) /\
  (exists nc, chan_corrs (t_vis_sh _ _ t) (t_flag_sh _ _ t) (t_ws_sh _ _ t) (t_ss_sh _ _ t)
     (dims _ (t_freq _ _ t)) (dims _ (t_width _ _ t)) (dims _ (t_ebw _ _ t)) (dims _ (t_res _ _ t)) = Ok nc) /\
  rows_distinct 3 (t_time _ _ t) (t_ant1 _ _ t) (t_ant2 _ _ t).
Proof.
  cbv zeta. split; [intros i _; vm_compute; split; congruence|].
  split; [intros i _; vm_compute; split; congruence|].
  split. { apply QcF_sentinel. intros i Hi. do 3 (destruct i as [|i]; [apply Qc_ltb_lt; vm_compute; reflexivity|]). lia. }
  split; [eexists; reflexivity|].
  intros i j Hi Hj Et _.
  do 3 (destruct i as [|i]; [do 3 (destruct j as [|j]; [first [reflexivity | exfalso; apply (f_equal this) in Et; vm_compute in Et; discriminate]|]); lia|]).
  lia.
Qed.

(* With row flags outside {0,1} the claim is false: a row flag of 2 is accepted as
   "flagged" by the row mapper, but never equals the output flag 1. *)
Theorem C13_nonbinary_row_flags_refuted :
  time_and_channel _ _ (ex_t (Some (fun _ => 2%Z)) None) (fun _ => 0%Z) = Raise ZeroFilledBin /\
  exists out, time_and_channel _ _ (ex_t (Some (fun _ => 1%Z)) None) (fun _ => 0%Z) = Ok out.
Proof.
  split; [vm_compute; reflexivity|].
  destruct (time_and_channel _ _ (ex_t (Some (fun _ => 1%Z)) None) (fun _ => 0%Z)) as [o|] eqn:E; [eauto|].
  exfalso. vm_compute in E. discriminate.
Qed.
Print Assumptions C13_nonbinary_row_flags_refuted.

(* ------------------------------------------------------------------ C14 *)
Theorem C14_weighted_vis_conserved K n nchan ncorr orows ochans rmap cmap flag_row oflag x v ws out c :
  (* visibilities add up in a commutative monoid, division undoes scaling *)
  comm_monoid (cadd K) (c0 K) ->
  (forall z w, fnonzero K w = true -> cscale K (cdiv K z w) w = z) ->
  in_vis K x = Some v -> in_wspec K x = Some ws ->
  (forall i, i < n -> rmap i < orows) -> (forall ch, ch < nchan -> cmap ch < ochans) ->
  (* nothing is flagged *)
  (forall i, i < n -> contributes flag_row oflag i (rmap i)) ->
  (forall i ch, i < n -> ch < nchan -> ~ sample_flagged K x i ch c) ->
  c < ncorr ->
  row_chan_average K n nchan ncorr orows ochans rmap cmap flag_row oflag x = Ok out ->
  (forall r f, r < orows -> f < ochans -> fnonzero K (oc_wspec K (out r f c)) = true) ->
  lsum (cadd K) (c0 K)
       (fun p => cscale K (oc_vis K (out (fst p) (snd p) c)) (oc_wspec K (out (fst p) (snd p) c)))
       (all_pairs orows ochans) =
  lsum (cadd K) (c0 K) (fun p => cscale K (v (fst p) (snd p) c) (ws (fst p) (snd p) c))
       (all_pairs n nchan).
Proof. exact (weighted_vis_conserved K n nchan ncorr orows ochans rmap cmap flag_row oflag x v ws out c). Qed.
Print Assumptions C14_weighted_vis_conserved.
(* the laws hold of exact complex rationals, and a non-trivial instance meets the
   other hypotheses *)
Example C14_laws : comm_monoid (cadd dK) (c0 dK) /\
  (forall z w, fnonzero dK w = true -> cscale dK (cdiv dK z w) w = z).
Proof. split; [apply QcK_cmonoid|apply QcK_div]. Qed.
Definition ex_cells2 : chan_cols dK :=
  {| in_rweight := None; in_vis := in_vis dK ex_cells; in_flag := None;
     in_wspec := in_wspec dK ex_cells; in_sspec := None |}.
Example C14_example : exists out,
  row_chan_average dK 2 3 1 1 2 (fun _ => 0) ex_cmap None None ex_cells2 = Ok out /\
  forall r f, r < 1 -> f < 2 -> fnonzero dK (oc_wspec dK (out r f 0)) = true.
Proof.
  destruct (row_chan_average dK 2 3 1 1 2 (fun _ => 0) ex_cmap None None ex_cells2) as [out|] eqn:E;
    [|exfalso; vm_compute in E; discriminate].
  exists out. split; [reflexivity|].
  assert (X : forallb (fun c => fnonzero dK (oc_wspec dK c))
    (show (row_chan_average dK 2 3 1 1 2 (fun _ => 0) ex_cmap None None ex_cells2)) = true)
    by (vm_compute; reflexivity).
  rewrite E in X. cbn [show forallb] in X. apply andb_true_iff in X. destruct X as [X1 X2].
  apply andb_true_iff in X2. destruct X2 as [X2 _].
  intros r f Hr Hf. destruct r as [|r]; [|lia]. destruct f as [|[|f]]; [exact X1|exact X2|lia].
Qed.

(* ------------------------------------------------------------------ C15 *)
Theorem C15_chan_average K nchan ochans cmap freq width ebw resn :
  let out := chan_average K nchan ochans cmap freq width ebw resn in
  let sum := lsum (A := nat) (fadd K) (f0 K) in
  (forall b, b < ochans -> exists l, ascending nchan (fun ch => cmap ch = b) l /\
     (forall col, freq = Some col ->
        exists o, ca_freq K out = Some o /\ o b = fdivn K (sum col l) (length l)) /\
     (forall col, width = Some col -> exists o, ca_width K out = Some o /\ o b = sum col l) /\
     (forall col, ebw = Some col -> exists o, ca_ebw K out = Some o /\ o b = sum col l) /\
     (forall col, resn = Some col -> exists o, ca_res K out = Some o /\ o b = sum col l)) /\
  (freq = None -> ca_freq K out = None) /\ (width = None -> ca_width K out = None) /\
  (ebw = None -> ca_ebw K out = None) /\ (resn = None -> ca_res K out = None).
Proof. exact (chan_average_spec K nchan ochans cmap freq width ebw resn). Qed.
Print Assumptions C15_chan_average.

Theorem C15_bandwidth_conserved K nchan bs freq width ebw resn :
  comm_monoid (fadd K) (f0 K) -> 0 < bs ->
  let '(cmap, ochans) := channel_mapper nchan bs in
  let out := chan_average K nchan ochans cmap freq width ebw resn in
  let sum := lsum (A := nat) (fadd K) (f0 K) in
  (forall col, width = Some col -> exists o, ca_width K out = Some o /\
     sum o (seq 0 ochans) = sum col (seq 0 nchan)) /\
  (forall col, ebw = Some col -> exists o, ca_ebw K out = Some o /\
     sum o (seq 0 ochans) = sum col (seq 0 nchan)) /\
  (forall col, resn = Some col -> exists o, ca_res K out = Some o /\
     sum o (seq 0 ochans) = sum col (seq 0 nchan)).
Proof.
  intros M Hbs. pose proof (channel_mapper_spec nchan bs Hbs) as CM.
  destruct (channel_mapper nchan bs) as [cmap ochans]. destruct CM as [_ [_ [C _]]]. cbv zeta.
  repeat split; intros col ->; (eexists; split; [reflexivity|apply chan_sum_conserved; auto]).
Qed.
Print Assumptions C15_bandwidth_conserved.
Example C15_example :
  let out := chan_average dK 5 3 (fst (channel_mapper 5 2))
     (Some (of_list (q 0) (map q [10; 12; 14; 16; 18]%Z))) (Some (fun _ => q 2)) None None in
  let show o := option_map (fun a => map this (to_list 3 a)) o in
  (show (ca_freq dK out), show (ca_width dK out), show (ca_ebw dK out))
  = (Some [11#1; 15#1; 18#1], Some [4#1; 4#1; 2#1], None)%Q.
Proof. vm_compute. reflexivity. Qed.
Example C15_laws : comm_monoid (fadd dK) (f0 dK).
Proof. apply QcK_fmonoid. Qed.

(* ------------------------------------------------------------------ C16 *)
Theorem C16_merge_flags nrow nchan ncorr flag_row flag :
  match flag_row, flag with
  | Some fr, Some fl =>
      (merge_flags nrow nchan ncorr flag_row flag = Ok (Some fr) /\
       forall r, r < nrow -> (fr r <> 0%Z <-> row_all_flagged nchan ncorr fl r)) \/
      (merge_flags nrow nchan ncorr flag_row flag = Raise ValueError /\
       exists r, r < nrow /\ ~ (fr r <> 0%Z <-> row_all_flagged nchan ncorr fl r))
  | Some fr, None => merge_flags nrow nchan ncorr flag_row flag = Ok (Some fr)
  | None, Some fl => exists fr, merge_flags nrow nchan ncorr flag_row flag = Ok (Some fr) /\
      forall r, r < nrow -> (fr r = 0%Z \/ fr r = 1%Z) /\ (fr r <> 0%Z <-> row_all_flagged nchan ncorr fl r)
  | None, None => merge_flags nrow nchan ncorr flag_row flag = Ok None
  end.
Proof. exact (merge_flags_spec nrow nchan ncorr flag_row flag). Qed.
Print Assumptions C16_merge_flags.
Example C16_example :
  merge_flags 3 3 1 (Some (of_list 0%Z [0; 1; 1]%Z)) (Some ex_flags) = Raise ValueError /\
  match merge_flags 3 3 1 None (Some ex_flags) with
  | Ok (Some fr) => to_list 3 fr = [0; 1; 0]%Z | _ => False end.
Proof. vm_compute. split; reflexivity. Qed.

(* ------------------------------------------------------------------ C17 *)
Theorem C17_chan_corrs vis flag wspec sspec freq width ebw resn :
  let cd := present [option_map fst vis; option_map fst flag; option_map fst wspec;
                     option_map fst sspec; freq; width; ebw; resn] in
  let rd := present [option_map snd vis; option_map snd flag; option_map snd wspec;
                     option_map snd sspec] in
  match chan_corrs vis flag wspec sspec freq width ebw resn with
  | Ok (chan, corr) => ~ extents_conflict cd /\ ~ extents_conflict rd /\
                       common_extent cd chan /\ common_extent rd corr
  | Raise e => e = ValueError /\ (extents_conflict cd \/ extents_conflict rd)
  end.
Proof. exact (chan_corrs_spec vis flag wspec sspec freq width ebw resn). Qed.
Print Assumptions C17_chan_corrs.
Example C17_example :
  chan_corrs (Some (16, 4)) None (Some (16, 4)) None (Some 16) None None None = Ok (16, 4) /\
  chan_corrs (Some (16, 4)) None (Some (16, 2)) None (Some 16) None None None = Raise ValueError.
Proof. split; reflexivity. Qed.
