(* C120: what double precision leaves over. *)
From Coq Require Import Reals Lra Lia.
From Flocq Require Import Core.
From Verif Require Import Prelude PreludeFacts CRing CField CplxR CplxF PredictModel PredictSpec PredictProofs CalModel CalSpec CalProofs
  RoundModel RoundSpec RoundProofs RoundProofs4 RcalSpec RcalProofs.
Open Scope nat_scope.

(* a strong and a weak direction, gains of one *)
Section Left.
  Context (dv : R * R -> R * R -> R * R) (iv : R * R -> R * R).
  Notation K := (rounded (nearest 53)).
  Lemma unit_term x : generic_format radix2 (FLX_exp 53) x ->
    cmul (c := K) (cmul (c := K) (re 1) (re x)) (cconj (c := K) (re 1)) = re x.
  Proof.
    intros H. unfold re. cbn. repeat rewrite ?Ropp_0, ?Rmult_1_l, ?Rmult_1_r, ?Rmult_0_l, ?Rmult_0_r, ?fl_0, ?Rminus_0_r, ?Rplus_0_r, ?(fl_exact x H). reflexivity.
  Qed.
  Lemma re_sub x y : csub (c := K) (re x) (re y) = re (nearest 53 (x - y)).
  Proof. unfold re. cbn. rewrite Rminus_0_r, fl_0. reflexivity. Qed.
  Lemma fmt_neg : generic_format radix2 (FLX_exp 53) (- small).
  Proof. apply generic_format_opp. exact fmt_small. Qed.
  Lemma left_over : exists tbi' v tbi'' out,
    corrupt_vis 1 (fun _ => 0%Z) (fun _ => 1) (fun _ => 0) (fun _ => 1) (stored_gain (nearest 53) dv iv (unit_gains 2)) (stored_model (nearest 53) dv iv (directions [1%R; small])) = Ok (tbi', v) /\
    residual_vis 1 tbi' (fun _ => 1) (fun _ => 0) (fun _ => 1) (stored_gain (nearest 53) dv iv (unit_gains 2)) v (fun _ _ _ _ => false) (stored_model (nearest 53) dv iv (directions [1%R; small])) = Ok (tbi'', out) /\
    v_at out 0 0 0 0 = re (- small).
  Proof.
    do 4 eexists. split; [reflexivity|]. split; [reflexivity|].
    change (csub (c := K) (csub (c := K) (cadd (c := K) (cadd (c := K) (re 0) (cmul (c := K) (cmul (c := K) (re 1) (re 1)) (cconj (c := K) (re 1))))
       (cmul (c := K) (cmul (c := K) (re 1) (re small)) (cconj (c := K) (re 1)))) (cmul (c := K) (cmul (c := K) (re 1) (re 1)) (cconj (c := K) (re 1))))
       (cmul (c := K) (cmul (c := K) (re 1) (re small)) (cconj (c := K) (re 1))) = re (- small)).
    rewrite (unit_term 1 fmt_1), (unit_term small fmt_small), !re_add, !re_sub.
    rewrite Rplus_0_l, (fl_exact 1 fmt_1), fl_one. replace (1 - 1)%R with 0%R by ring. rewrite fl_0.
    replace (0 - small)%R with (- small)%R by ring. rewrite (fl_exact _ fmt_neg). reflexivity.
  Qed.
End Left.

Theorem not_exact : ~ (forall dv iv (g : gain_arr RCF) (m : model_arr RCF) tbi' v tbi'' out,
  let g' := stored_gain (nearest 53) dv iv g in let m' := stored_model (nearest 53) dv iv m in
  corrupt_vis 1 (fun _ => 0%Z) (fun _ => 1) (fun _ => 0) (fun _ => 1) g' m' = Ok (tbi', v) ->
  residual_vis 1 tbi' (fun _ => 1) (fun _ => 0) (fun _ => 1) g' v (fun _ _ _ _ => false) m' = Ok (tbi'', out) ->
  v_at out 0 0 0 0 = (0, 0)%R).
Proof.
  intros A. destruct (left_over (fun x _ => x) (fun x => x)) as (tbi' & v & tbi'' & out & E1 & E2 & V).
  pose proof (A _ _ _ _ _ _ _ _ E1 E2) as Z. rewrite V in Z. unfold re in Z. injection Z as Z. rewrite small_val in Z. lra.
Qed.
