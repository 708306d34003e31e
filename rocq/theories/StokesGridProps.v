(* C67: the gridding policies between Stokes parameters and correlations *)
From Coq Require Import String Reals Lra.
From Verif Require Import Prelude CRing CplxR StokesGridModel StokesGridSpec StokesGridProofs.
Close Scope R_scope.
Open Scope nat_scope.

(* degridding adds the Stokes parameter to every correlation with the coefficient it has there, for every layout containing it *)
Theorem C67_to_correlations : forall l s, In l layouts -> contains l s ->
  exists f, stokes2corr_impl (to_name l s) = Ok f /\ ncorr_out (to_name l s) = Ok (length l) /\
    ncorr_outpy (to_name l s) = Ok (length l) /\
    forall x out k, f x out k = if k <? length l then cadd (out k) (cmul (coeff (nth k l XX) s) x) else out k.
Proof. exact to_correlations. Qed.
Print Assumptions C67_to_correlations.
(* gridding reads the Stokes parameter off the correlations *)
Theorem C67_from_correlations : forall l s ncorr, In l layouts -> contains l s -> ~ (l = [RL; LR] /\ s = Q) -> (length l <= ncorr) ->
  exists f, corr2stokes (from_name s l) ncorr = Ok f /\
    forall v, f v = cmul half (csum (length l) (fun k => cmul (cconj (coeff (nth k l XX) s)) (v k))).
Proof. exact from_correlations. Qed.
Print Assumptions C67_from_correlations.
(* from Stokes to correlations and back: the same parameter returns, any other one reads zero *)
Theorem C67_roundtrip : forall l s t f g ncorr, In l layouts -> contains l s -> contains l t -> ~ (l = [RL; LR] /\ s = Q) -> length l <= ncorr ->
  stokes2corr_impl (to_name l t) = Ok g -> corr2stokes (from_name s l) ncorr = Ok f ->
  forall x, (s = t -> f (g x (fun _ => c0)) = x) /\ (s <> t -> f (g x (fun _ => c0)) = c0).
Proof. exact roundtrip. Qed.
Print Assumptions C67_roundtrip.
(* Q can be written to the layout RL, LR but there is no policy reading it back *)
Theorem C67_missing_policy_refuted : exists l s, In l layouts /\ contains l s /\
  (exists g, stokes2corr_impl (to_name l s) = Ok g) /\ forall ncorr, corr2stokes (from_name s l) ncorr = Raise ValueError.
Proof.
  exists [RL; LR], Q. split; [cbn; auto 10|]. split; [exists RL; split; [cbn; auto|discriminate]|]. split; [eexists; reflexivity|reflexivity].
Qed.
Print Assumptions C67_missing_policy_refuted.
(* every other name is refused *)
Theorem C67_unknown_to : forall p, (forall l s, In l layouts -> contains l s -> p <> to_name l s) ->
  stokes2corr_impl p = Raise ValueError /\ ncorr_out p = Raise ValueError /\ ncorr_outpy p = Raise ValueError.
Proof. exact unknown_to. Qed.
Print Assumptions C67_unknown_to.
Theorem C67_unknown_from : forall p ncorr, (forall l s, In l layouts -> contains l s -> p <> from_name s l) -> corr2stokes p ncorr = Raise ValueError.
Proof. exact unknown_from. Qed.
Print Assumptions C67_unknown_from.
(* a view too short for the policy is not refused: the read goes outside it *)
Theorem C67_short_view : forall l s k ncorr, In l layouts -> ~ (l = [RL; LR] /\ s = Q) -> k < length l -> coefficient (nth k l XX) s <> (0, 0)%Z ->
  ncorr <= k -> corr2stokes (from_name s l) ncorr = Raise IndexError.
Proof. exact short_view. Qed.
Print Assumptions C67_short_view.

Example C67_names : to_name [XX; XY; YX; YY] V = "XXXYYXYY_FROM_V"%string /\ from_name U [RR'; RL; LR; LL] = "U_FROM_RRRLLRLL"%string.
Proof. split; reflexivity. Qed.
Example C67_case : In [RR'; RL; LR; LL] layouts /\ contains [RR'; RL; LR; LL] U /\ ~ ([RR'; RL; LR; LL] = [RL; LR] /\ U = Q) /\
  exists g, stokes2corr_impl (to_name [RR'; RL; LR; LL] U) = Ok g /\ g (3%R, 0%R) (fun _ => c0) 1 = (0%R, 3%R).
Proof.
  split; [cbn; auto 10|]. split; [exists RL; split; [cbn; auto|discriminate]|]. split; [intros (_ & E); discriminate E|].
  eexists; split; [reflexivity|]. apply injective_projections; cbn; lra.
Qed.
Example C67_unknown_case : (forall l s, In l layouts -> contains l s -> "I_FROM_XXYY"%string <> to_name l s) .
Proof. intros l s Hl _. unfold layouts in Hl. cbn [In] in Hl. repeat (destruct Hl as [<-|Hl]; [destruct s; discriminate|]). destruct Hl. Qed.
Example C67_short_case : 3 < length [XX; XY; YX; YY] /\ coefficient (nth 3 [XX; XY; YX; YY] XX) I <> (0, 0)%Z /\
  corr2stokes "I_FROM_XXXYYXYY" 2 = Raise IndexError.
Proof. split; [cbn; lia|]. split; [discriminate|reflexivity]. Qed.
