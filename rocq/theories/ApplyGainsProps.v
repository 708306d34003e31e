(* C104: the script that applies gains to the model columns of a measurement set. *)
From Coq Require Import QArith Qcanon Sorting.Sorted.
From Verif Require Import Prelude CRing CField PredictModel PredictSpec CalModel CalSpec CalProps ApplyGainsModel ApplyGainsSpec ApplyGainsProofs.
Open Scope nat_scope.

(* rows sorted by time: every row of the output is the sum over the columns of G_p M G_q^H, with the gains of the row's
   own time (us: the distinct times in ascending order) *)
Theorem C104_gains : forall {F : fops}, flaws F ->
  forall nrow time upc nant ant1 ant2 nchan ncorr ndir cols (g : gain_arr F) mode us,
  0 < nrow -> 0 < upc -> sorted_times nrow time -> distinct_times nrow time us ->
  gains_mode ncorr (j_ndim g) mode -> 0 < ndir <= 3 -> j_tim g = length us ->
  exists out, apply_gains nrow time upc nant ant1 ant2 nchan ncorr ndir cols g = Ok out /\
    forall r f c t, r < nrow -> f < nchan -> c < ncorr -> t < length us -> nth t us 0%Z = time r ->
      out r f c = with_gains mode ncorr ndir g cols ant1 ant2 t r f c.
Proof. intros F L. exact (apply_main L). Qed.

(* the number of times per chunk does not matter *)
Theorem C104_chunks_irrelevant : forall {F : fops}, flaws F ->
  forall nrow time upc upc' nant ant1 ant2 nchan ncorr ndir cols (g : gain_arr F) mode us,
  0 < nrow -> 0 < upc -> 0 < upc' -> sorted_times nrow time -> distinct_times nrow time us ->
  gains_mode ncorr (j_ndim g) mode -> 0 < ndir <= 3 -> j_tim g = length us ->
  exists out out', apply_gains nrow time upc nant ant1 ant2 nchan ncorr ndir cols g = Ok out /\
    apply_gains nrow time upc' nant ant1 ant2 nchan ncorr ndir cols g = Ok out' /\
    forall r f c, r < nrow -> f < nchan -> c < ncorr -> out r f c = out' r f c.
Proof. intros F L. exact (apply_chunks_irrelevant L). Qed.

(* gains for a single time are applied to all times if there is one time per chunk *)
Theorem C104_constant_gains : forall {F : fops}, flaws F ->
  forall nrow time nant ant1 ant2 nchan ncorr ndir cols (g : gain_arr F) mode us,
  0 < nrow -> sorted_times nrow time -> distinct_times nrow time us ->
  gains_mode ncorr (j_ndim g) mode -> 0 < ndir <= 3 -> j_tim g = 1 ->
  exists out, apply_gains nrow time 1 nant ant1 ant2 nchan ncorr ndir cols g = Ok out /\
    forall r f c, r < nrow -> f < nchan -> c < ncorr -> out r f c = with_gains mode ncorr ndir g cols ant1 ant2 0 r f c.
Proof. intros F L. exact (apply_constant L). Qed.

(* more than three columns are always refused: the directions are put in chunks of three *)
Theorem C104_four_columns_refused : forall {F : fops} nrow time upc nant ant1 ant2 nchan ncorr ndir cols (g : gain_arr F) mode,
  gains_mode ncorr (j_ndim g) mode -> 3 < ndir -> apply_gains nrow time upc nant ant1 ant2 nchan ncorr ndir cols g = Raise ValueError.
Proof. intros F. exact apply_many. Qed.

Theorem C104_correlations_refused : forall {F : fops} nrow time upc nant ant1 ant2 nchan ncorr ndir cols (g : gain_arr F),
  ncorr = 3 \/ 4 < ncorr -> apply_gains nrow time upc nant ant1 ant2 nchan ncorr ndir cols g = Raise ValueError.
Proof. intros F. exact apply_corr. Qed.

Theorem C104_dimensions_refused : forall {F : fops} nrow time upc nant ant1 ant2 nchan ncorr ndir cols (g : gain_arr F),
  0 < upc -> ncorr <= 2 \/ ncorr = 4 -> ~ (exists mode, gains_mode ncorr (j_ndim g) mode) ->
  apply_gains nrow time upc nant ant1 ant2 nchan ncorr ndir cols g = Raise RuntimeError.
Proof. intros F. exact apply_dims. Qed.

(* gains whose times fill another number of chunks, and more than one, are refused *)
Theorem C104_times_refused : forall {F : fops} nrow time upc nant ant1 ant2 nchan ncorr ndir cols (g : gain_arr F) mode us,
  0 < upc -> distinct_times nrow time us -> gains_mode ncorr (j_ndim g) mode ->
  (exists c, ~ (c * upc < j_tim g <-> c * upc < length us)) -> j_tim g = 0 \/ upc < j_tim g ->
  apply_gains nrow time upc nant ant1 ant2 nchan ncorr ndir cols g = Raise ValueError.
Proof. intros F. exact apply_blocks. Qed.

(* gains with too few times in the same number of chunks are not: the result depends on memory outside the gains *)
Definition ag_time : arr Z := of_list 0%Z [3; 8]%Z.
Definition ag_g (k : Z) : gain_arr GQ := {| j_ndim := 5; j_tim := 1; j_chan := 1; j_dir := 1;
  j_at := fun t _ _ _ _ _ => if Nat.eqb t 0 then gi 1 1 else gi k 0 |}.
Definition ag_cols : nat -> nat -> nat -> nat -> GQ := fun _ r _ _ => gi (Z.of_nat r + 1) 0.
Definition entry (x : res (nat -> nat -> nat -> GQ)) (r f c : nat) : GQ := match x with Ok o => o r f c | Raise _ => (0 : GQ)%K end.
Theorem C104_short_gains_refuted :
  exists nrow time upc nant ant1 ant2 nchan ncorr ndir cols (g g' : gain_arr GQ) mode out out' r f c,
    0 < nrow /\ 0 < upc /\ sorted_times nrow time /\ gains_mode ncorr (j_ndim g) mode /\ 0 < ndir <= 3 /\ j_dir g = ndir /\ j_chan g = nchan /\
    same_gains g g' /\ r < nrow /\ f < nchan /\ c < ncorr /\
    apply_gains nrow time upc nant ant1 ant2 nchan ncorr ndir cols g = Ok out /\
    apply_gains nrow time upc nant ant1 ant2 nchan ncorr ndir cols g' = Ok out' /\ out r f c <> out' r f c.
Proof.
  exists 2, ag_time, 2, 1, (fun _ => 0), (fun _ => 0), 1, 1, 1, ag_cols, (ag_g 1), (ag_g 2), DIAG_DIAG.
  do 2 eexists. exists 1, 0, 0. split; [lia|]. split; [lia|]. split.
  { intros [|[|r]] [|[|r']] H1 H2; cbn; lia. }
  split; [left; auto|]. split; [lia|]. split; [reflexivity|]. split; [reflexivity|]. split.
  { repeat (split; [reflexivity|]). intros [|t] a f s T; [reflexivity|cbn in T; lia]. }
  do 3 (split; [lia|]). split; [reflexivity|]. split; [reflexivity|].
  intros H. apply (f_equal (fun x : GQ => this (q_re x))) in H. vm_compute in H. discriminate.
Qed.

(* rows that are not sorted by time get the gains of other times *)
Theorem C104_unsorted_refuted :
  exists nrow time upc nant ant1 ant2 nchan ncorr ndir cols (g : gain_arr GQ) mode us out r f c t,
    0 < nrow /\ 0 < upc /\ distinct_times nrow time us /\ gains_mode ncorr (j_ndim g) mode /\ 0 < ndir <= 3 /\ j_tim g = length us /\
    r < nrow /\ f < nchan /\ c < ncorr /\ t < length us /\ nth t us 0%Z = time r /\
    apply_gains nrow time upc nant ant1 ant2 nchan ncorr ndir cols g = Ok out /\
    out r f c <> with_gains mode ncorr ndir g cols ant1 ant2 t r f c.
Proof.
  exists 2, (of_list 0%Z [8; 3]%Z), 1, 1, (fun _ => 0), (fun _ => 0), 1, 1, 1, ag_cols,
    {| j_ndim := 5; j_tim := 2; j_chan := 1; j_dir := 1; j_at := fun t _ _ _ _ _ => gi (Z.of_nat t + 1) 0 |}, DIAG_DIAG, [3; 8]%Z.
  eexists. exists 0, 0, 0, 1. split; [lia|]. split; [lia|]. split.
  { split; [repeat constructor; lia|]. intros x. cbn. split.
    - intros [<-|[<-|[]]]; [exists 1|exists 0]; split; try lia; reflexivity.
    - intros ([|[|r]] & R & E); cbn in E; [right; left|left|lia]; exact E. }
  split; [left; auto|]. split; [lia|]. split; [reflexivity|]. do 3 (split; [lia|]). split; [cbn; lia|]. split; [reflexivity|]. split; [reflexivity|].
  intros H. apply (f_equal (fun x : GQ => this (q_re x))) in H. vm_compute in H. discriminate.
Qed.

(* ---------- examples ---------- *)
(* three rows at two times, four correlations, matrix gains, two columns *)
Definition ag_t3 : arr Z := of_list 0%Z [3; 3; 8]%Z.
Definition ag_full : gain_arr GQ := {| j_ndim := 6; j_tim := 2; j_chan := 1; j_dir := 2; j_at := fun t a _ s => cx_mat (Z.of_nat (3 * t + a + s)) |}.
Definition ag_c4 : nat -> nat -> nat -> nat -> GQ := fun s r _ c => gi (Z.of_nat (r + s)) (Z.of_nat c).
Example ex_apply_hyps : sorted_times 3 ag_t3 /\ distinct_times 3 ag_t3 [3; 8]%Z /\ gains_mode 4 (j_ndim ag_full) FULL /\ j_tim ag_full = length [3; 8]%Z /\
  nth 1 [3; 8]%Z 0%Z = ag_t3 2.
Proof.
  split; [intros [|[|[|r]]] [|[|[|r']]] H1 H2; cbn; lia|]. split; [|split; [right; right; auto|split; reflexivity]].
  split; [repeat constructor; lia|]. intros x. cbn. split.
  - intros [<-|[<-|[]]]; [exists 0|exists 2]; split; try lia; reflexivity.
  - intros ([|[|[|r]]] & R & E); cbn in E; [left|left|right; left|lia]; exact E.
Qed.
Example ex_apply : map (fun upc => map (fun c => qshow (entry (apply_gains 3 ag_t3 upc 2 cx_a1 cx_a2 1 4 2 ag_c4 ag_full) 2 0 c)) [0; 1; 2; 3]) [1; 2; 5]
  = repeat (map (fun c => qshow (with_gains FULL 4 2 ag_full ag_c4 cx_a1 cx_a2 1 2 0 c)) [0; 1; 2; 3]) 3.
Proof. vm_compute. reflexivity. Qed.
Example ex_apply_refused :
  apply_gains 3 ag_t3 1 2 cx_a1 cx_a2 1 4 4 ag_c4 ag_full = Raise ValueError /\
  apply_gains 3 ag_t3 1 2 cx_a1 cx_a2 1 3 2 ag_c4 ag_full = Raise ValueError /\
  apply_gains 3 ag_t3 1 2 cx_a1 cx_a2 1 2 2 ag_c4 ag_full = Raise RuntimeError.
Proof. repeat split; reflexivity. Qed.
(* five times of gains for two times of data, one time per chunk *)
Example ex_times_refused : ~ (2 * 1 < 5 <-> 2 * 1 < length [3; 8]%Z) /\ 1 < 5.
Proof. cbn. lia. Qed.

Print Assumptions C104_gains.
Print Assumptions C104_chunks_irrelevant.
Print Assumptions C104_constant_gains.
Print Assumptions C104_four_columns_refused.
Print Assumptions C104_correlations_refused.
Print Assumptions C104_dimensions_refused.
Print Assumptions C104_times_refused.
Print Assumptions C104_short_gains_refuted.
Print Assumptions C104_unsorted_refuted.
