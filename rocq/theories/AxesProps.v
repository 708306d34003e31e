(* C77: axes of beam cubes and beam file names *)
From Coq Require Import Reals String Ascii Lra Lia.
From Verif Require Import Prelude AxesModel AxesSpec AxesProofs AxesProofs2 AxesProofs3.
Close Scope R_scope.
Open Scope nat_scope.

(* every axis has the size and name of its cards.  Its grid is linear in the pixel number, has CRVAL at pixel CRPIX (counted from 1) and steps
   of CDELT, both taken from degrees to radians where the unit is DEG -- or else the irregular grid where all its cards are there *)
Theorem C77_axis : forall h axes i a, beam_axes (Some h) = Ok axes -> nth_error axes i = Some a ->
  exists z t pix, h (key "NAXIS" (1 + i)) = Some (HInt z) /\ h (key "CTYPE" (1 + i)) = Some (HStr t) /\ numeric h (key "CRPIX" (1 + i)) None pix /\
    a_size a = Z.to_nat z /\ a_ctype a = strip t /\
    ((exists j, 1 <= j <= a_size a /\ h (key ("G" ++ a_ctype a) j) = None) -> exists v d s, numeric h (key "CRVAL" (1 + i)) (Some 0%R) v /\ numeric h (key "CDELT" (1 + i)) (Some 1%R) d /\ scale h (1 + i) s /\
       forall j, a_grid a j = ((INR (j + 1) - pix) * (d * s) + v * s)%R) /\
    ((forall j, 1 <= j <= a_size a -> h (key ("G" ++ a_ctype a) j) <> None) -> forall j, j < a_size a -> numeric h (key ("G" ++ a_ctype a) (1 + j)) None (a_grid a j)).
Proof. exact axes_ok. Qed.
Print Assumptions C77_axis.
(* as many axes as NAXIS says *)
Theorem C77_count : forall h axes, beam_axes (Some h) = Ok axes -> exists z, h "NAXIS"%string = Some (HInt z) /\ List.length axes = Z.to_nat z.
Proof. exact axes_len. Qed.
Print Assumptions C77_count.
(* every header whose cards have the right types is accepted *)
Theorem C77_accepted : forall h z, h "NAXIS"%string = Some (HInt z) -> (forall n, 1 <= n <= Z.to_nat z -> good_axis h n) -> exists axes, beam_axes (Some h) = Ok axes.
Proof. exact axes_total. Qed.
Print Assumptions C77_accepted.
(* the grids: the last axis of each kind with its number from 1; only l and m take the sign asked for *)
Theorem C77_grids : forall h la ma l nl gl m nm gm q nq gq, beam_grids h la ma = Ok ((l, nl, gl), (m, nm, gm), (q, nq, gq)) ->
  exists axes al am aq ls ms, beam_axes h = Ok axes /\ last_axis l_name axes l al /\ last_axis m_name axes m am /\ last_axis freq_name axes q aq /\ sign_of la ls /\ sign_of ma ms /\
    nl = a_size al /\ nm = a_size am /\ nq = a_size aq /\ forall j, gl j = (ls * a_grid al j)%R /\ gm j = (ms * a_grid am j)%R /\ gq j = a_grid aq j.
Proof. exact grids_ok. Qed.
Print Assumptions C77_grids.
(* they are given exactly if there is an axis of each kind (and the arguments are strings or None) *)
Theorem C77_grids_found : forall h la ma axes, beam_axes h = Ok axes -> la <> AxObject true -> ma <> AxObject true ->
  ((exists o, beam_grids h la ma = Ok o) <-> (exists a, In a axes /\ l_name (a_ctype a)) /\ (exists a, In a axes /\ m_name (a_ctype a)) /\ (exists a, In a axes /\ freq_name (a_ctype a))) /\
  ((forall a, In a axes -> ~ l_name (a_ctype a)) \/ (forall a, In a axes -> ~ m_name (a_ctype a)) \/ (forall a, In a axes -> ~ freq_name (a_ctype a)) -> beam_grids h la ma = Raise ValueError).
Proof.
  intros h la ma axes Ea Hl Hm. split; [split|apply (grids_missing h la ma axes Ea)].
  - intros ([[[[l nl] gl] [[m nm] gm]] [[q nq] gq]] & E). apply grids_ok in E as (axes' & al & am & aq & ls & ms & Ea' & (_ & H1 & P1 & _) & (_ & H2 & P2 & _) & (_ & H3 & P3 & _) & _). rewrite Ea in Ea'. injection Ea' as <-.
    apply nth_error_In in H1, H2, H3. eauto 10.
  - intros (H1 & H2 & H3). now apply (grids_total h la ma axes).
Qed.
Print Assumptions C77_grids_found.
(* only the sign of the arguments counts, not the name they give *)
Theorem C77_argument_name_refuted : forall h ma, beam_grids h (AxStr "M") ma = beam_grids h (AxStr "L") ma /\ beam_grids h (AxStr "-nonsense") ma = beam_grids h (AxStr "-L") ma.
Proof. intros. split; reflexivity. Qed.
Print Assumptions C77_argument_name_refuted.
(* and a sign in CTYPE is not understood: an axis called -L is no l axis *)
Theorem C77_signed_ctype_refuted : forall h la ma axes, beam_axes h = Ok axes -> (forall a, In a axes -> In (a_ctype a) ["-L"; "M"; "FREQ"]%string) -> beam_grids h la ma = Raise ValueError.
Proof.
  intros h la ma axes E H. apply (grids_missing h la ma axes E). left. intros a Ia Hl. specialize (H a Ia). unfold l_name in Hl. cbn in H, Hl. destruct H as [H|[H|[H|[]]]]; rewrite <- H in Hl; repeat (destruct Hl as [Hl|Hl]; [discriminate|]); easy.
Qed.
Print Assumptions C77_signed_ctype_refuted.
(* names and units lose the blanks at both ends, and nothing else *)
Theorem C77_strip : forall s, stripped s (strip s).
Proof. exact strip_ok. Qed.
Print Assumptions C77_strip.
(* a header without CTYPE is an error, though a default is meant; so is one without CRPIX *)
Theorem C77_missing_cards : forall h z i, h "NAXIS"%string = Some (HInt z) -> 1 <= i <= Z.to_nat z -> h (key "CTYPE" i) = None \/ h (key "CRPIX" i) = None \/ h (key "NAXIS" i) = None -> exists e, beam_axes (Some h) = Raise e.
Proof.
  intros h z i Hz Hi H. destruct (beam_axes (Some h)) as [axes|e] eqn:E; [|now exists e]. exfalso. destruct (axes_len h axes E) as (z' & Hz' & L). rewrite Hz in Hz'. injection Hz' as <-.
  destruct (nth_error axes (i - 1)) as [a|] eqn:Ea; [|apply nth_error_None in Ea; lia]. destruct (axes_ok h axes (i - 1) a E Ea) as (n & t & pix & H1 & H2 & H3 & _). replace (1 + (i - 1)) with i in * by lia.
  destruct H as [H|[H|H]]; [congruence| |congruence]. inversion H3; congruence.
Qed.
Print Assumptions C77_missing_cards.
(* the values of an irregular grid in degrees stay in degrees, though the unit says RAD afterwards *)
Theorem C77_irregular_degrees_refuted : exists h axes a, beam_axes (Some h) = Ok axes /\ axes = [a] /\ in_degrees h 1 /\ a_cunit a = "RAD"%string /\ numeric h (key "GX" 1) None 180 /\ a_grid a 0 = 180%R.
Proof.
  exists (fun k => if String.eqb k "NAXIS" then Some (HInt 1) else if String.eqb k "NAXIS1" then Some (HInt 1) else if String.eqb k "CTYPE1" then Some (HStr "X") else if String.eqb k "CRPIX1" then Some (HInt 1)
                   else if String.eqb k "CUNIT1" then Some (HStr "deg") else if String.eqb k "GX1" then Some (HReal 180) else None).
  eexists. eexists. split; [cbv -[Rmult Rminus Rplus Rdiv IZR INR PI deg2rad]; reflexivity|]. split; [reflexivity|]. split; [exists "deg"%string; split; reflexivity|]. split; [reflexivity|]. split; [now apply nu_real|reflexivity].
Qed.
Print Assumptions C77_irregular_degrees_refuted.

(* file names: the schema is text, $$, $name and $(name) with the four names corr, CORR, reim and REIM; each piece is replaced.  Every other schema is a
   ValueError *)
Theorem C77_filename : forall schema corr ri,
  (forall f, filename schema corr ri = Ok f <-> exists ps vs, well_formed ps /\ schema = show_all ps /\ Forall2 (stands_for corr ri) ps vs /\ f = String.concat "" vs) /\
  (forall e, filename schema corr ri = Raise e -> e = ValueError).
Proof. intros. split; [apply filename_ok|apply filename_err]. Qed.
Print Assumptions C77_filename.
(* the dictionary: one entry for every correlation asked for, under its name in lower case, with the file of the real and then of the imaginary part *)
Theorem C77_filenames : forall schema ids d, beam_filenames schema ids = Ok d ->
  NoDup (map fst d) /\ (forall k, In k (map fst d) <-> exists z s, In z ids /\ stokes_id z = Some s /\ k = lower s) /\
  (forall k fs, In (k, fs) d -> exists re im, fs = [re; im] /\ filename schema k "re" = Ok re /\ filename schema k "im" = Ok im) /\
  (NoDup ids -> map (fun k => Some k) (map fst d) = map (fun z => match stokes_id z with Some s => Some (lower s) | None => None end) ids).
Proof.
  intros schema ids d E. unfold beam_filenames in E. apply bind_ok' in E as (names & En & E). apply bind_ok' in E as (ps & Ep & E). injection E as <-. fold (put_all [] ps). apply names_spec in En. apply pairs_spec in Ep as [Ek Ev].
  split; [apply put_nodup; constructor|]. split; [|split].
  - intros k. rewrite put_keys, Ek. cbn [map]. split.
    + intros [[]|H]. apply (in_map Some) in H. rewrite <- En in H. apply in_map_iff in H as (z & Hz & Iz). unfold corr_key in Hz. destruct (stokes_id z) as [s|] eqn:Es; [|discriminate]. injection Hz as <-. now exists z, s.
    + intros (z & s & Iz & Es & ->). right. assert (H : In (corr_key z) (map Some names)) by (rewrite <- En; now apply in_map). unfold corr_key in H. rewrite Es in H. apply in_map_iff in H as (n & Hn & In'). now injection Hn as ->.
  - intros k fs H. apply put_in in H as [[]|H]. specialize (Ev _ H). cbn [fst snd] in Ev. unfold re_im_filenames in Ev. cbn [comprehend] in Ev. apply bind_ok' in Ev as (re & E1 & Ev). apply bind_ok' in Ev as (l & E2 & Ev). apply bind_ok' in E2 as (im & E2 & E3). injection E3 as <-. injection Ev as <-. now exists re, im.
  - intros N. assert (Nn : NoDup names).
    { clear - En N. revert names En. induction N as [|z ids Nz _ IH]; intros names En; destruct names as [|n ns]; try discriminate; constructor.
      - cbn in En. injection En as En1 En2. intros H. apply (in_map Some) in H. rewrite <- En2 in H. apply in_map_iff in H as (z' & Hz' & Iz'). rewrite (stokes_inj z z' n En1 Hz') in Nz. contradiction.
      - cbn in En. injection En as _ En. now apply IH. }
    rewrite (put_fresh ps []); cbn [map app]; rewrite Ek; [|exact Nn]. symmetry. exact En.
Qed.
Print Assumptions C77_filenames.
(* an unknown Stokes id is an error *)
Theorem C77_unknown_id : forall schema ids z, In z ids -> stokes_id z = None -> beam_filenames schema ids = Raise ValueError.
Proof.
  intros schema ids z Iz Hz. unfold beam_filenames. assert (E : comprehend (fun z => match stokes_id z with Some s => Ok (lower s) | None => Raise ValueError end) ids = Raise ValueError); [|now rewrite E].
  induction ids as [|y ids IH]; [easy|]. cbn [comprehend]. destruct Iz as [->|Iz]; [now rewrite Hz|]. destruct (stokes_id y); cbn [bind]; [|reflexivity]. now rewrite (IH Iz).
Qed.
Print Assumptions C77_unknown_id.
(* a schema that mentions correlation and part never gives one file to two correlations with names of the same length, or to two parts *)
Theorem C77_files_differ : forall ps c1 r1 c2 r2 f, well_formed ps -> mentions ps "corr" "CORR" -> mentions ps "reim" "REIM" -> String.length c1 = String.length c2 ->
  In r1 ["re"; "im"]%string -> In r2 ["re"; "im"]%string -> filename (show_all ps) (lower c1) r1 = Ok f -> filename (show_all ps) (lower c2) r2 = Ok f -> lower c1 = lower c2 /\ r1 = r2.
Proof.
  intros ps c1 r1 c2 r2 f W M1 M2 L R1 R2 E1 E2. unfold filename in E1, E2. fold (sub (vars_of (lower c1) r1) (show_all ps)) in E1. fold (sub (vars_of (lower c2) r2) (show_all ps)) in E2. rewrite sub_pieces in E1, E2 by exact W.
  apply bind_ok' in E1 as (vs & V & E1). apply bind_ok' in E2 as (ws & V2 & E2). injection E1 as <-. injection E2 as E. apply compr_ok in V, V2.
  apply (distinct_files ps c1 r1 c2 r2 vs ws); trivial; [| |symmetry; exact E].
  - clear - V. induction V; constructor; [now apply value_stands|assumption].
  - clear - V2. induction V2; constructor; [now apply value_stands|assumption].
Qed.
Print Assumptions C77_files_differ.

(* the schema of the documentation for two correlations, and a header with three axes, the first in degrees *)
Example C77_names : beam_filenames "beam_$(corr)_$REIM.fits" [9; 12]%Z = Ok [("xx", ["beam_xx_RE.fits"; "beam_xx_IM.fits"]); ("yy", ["beam_yy_RE.fits"; "beam_yy_IM.fits"])]%string /\
  let ps := [Text "beam_"; Braced "corr"; Text "_"; Name "REIM"; Text ".fits"]%string in show_all ps = "beam_$(corr)_$REIM.fits"%string /\ well_formed ps /\ mentions ps "corr" "CORR" /\ mentions ps "reim" "REIM".
Proof.
  split; [reflexivity|]. cbv zeta. split; [reflexivity|]. split; [|split; [right; left; cbn; auto|right; right; left; cbn; auto 10]].
  cbn [well_formed]. split; [reflexivity|]. split; [exists "c"%char, "orr"%string; repeat split|]. split; [reflexivity|]. split; [exists "R"%char, "EIM"%string; repeat split|]. split; [intros c r E; cbn in E; injection E as <- _; reflexivity|]. repeat split.
Qed.
Example C77_header : let h : header := fun k => if String.eqb k "NAXIS" then Some (HInt 3) else if String.eqb k "NAXIS1" then Some (HInt 5) else if String.eqb k "NAXIS2" then Some (HInt 5) else if String.eqb k "NAXIS3" then Some (HInt 2)
    else if String.eqb k "CTYPE1" then Some (HStr "px  ") else if String.eqb k "CTYPE2" then Some (HStr "Y") else if String.eqb k "CTYPE3" then Some (HStr "FREQ")
    else if String.eqb k "CRPIX1" then Some (HInt 3) else if String.eqb k "CRPIX2" then Some (HInt 3) else if String.eqb k "CRPIX3" then Some (HInt 1)
    else if String.eqb k "CUNIT1" then Some (HStr "deg") else if String.eqb k "CDELT1" then Some (HReal (1 / 2)) else None in
  exists l m q, beam_grids (Some h) (AxStr "-X") AxNone = Ok ((1, 5, l), (2, 5, m), (3, 2, q)) /\ l 4 = (- (PI / 180))%R /\ m 4 = 2%R /\ q 1 = 1%R.
Proof.
  cbv zeta. eexists. eexists. eexists. split; [cbv -[Rmult Rminus Rplus Rdiv IZR INR PI deg2rad]; reflexivity|]. unfold deg2rad. cbn [INR]. repeat split; lra.
Qed.
(* the letters and digits of a name in a schema are those of ASCII, and the underscore *)
Theorem C77_letters : forall c,
  (is_alpha c = true <-> In c (list_ascii_of_string "ABCDEFGHIJKLMNOPQRSTUVWXYZabcdefghijklmnopqrstuvwxyz_")) /\
  (is_alnum c = true <-> In c (list_ascii_of_string "ABCDEFGHIJKLMNOPQRSTUVWXYZabcdefghijklmnopqrstuvwxyz_0123456789")).
Proof.
  assert (M : forall c l, existsb (Ascii.eqb c) l = true <-> In c l).
  { intros c l. rewrite existsb_exists. split; [intros (x & I & E); apply Ascii.eqb_eq in E; now subst|intros I; exists c; split; [exact I|apply Ascii.eqb_refl]]. }
  intros c. rewrite <- !M. split; destruct c as [[] [] [] [] [] [] [] []]; vm_compute; split; trivial.
Qed.
Print Assumptions C77_letters.
(* a number of axes that is missing or no integer *)
Theorem C77_naxis : forall h, (h "NAXIS"%string = None -> beam_axes (Some h) = Raise KeyError) /\
  (forall c, h "NAXIS"%string = Some c -> (forall z, c <> HInt z) -> beam_axes (Some h) = Raise TypeError).
Proof. intros h. split; [intros E|intros c E N]; unfold beam_axes, fits_init; rewrite E; [reflexivity|]. destruct c as [z|x|s]; [now destruct (N z)|reflexivity|reflexivity]. Qed.
Print Assumptions C77_naxis.
(* an axis argument that is neither a string nor false is a TypeError, where all the axes are there *)
Theorem C77_argument_object : forall h la ma axes, beam_axes h = Ok axes ->
  (exists a, In a axes /\ l_name (a_ctype a)) -> (exists a, In a axes /\ m_name (a_ctype a)) -> (exists a, In a axes /\ freq_name (a_ctype a)) ->
  la = AxObject true \/ ma = AxObject true -> beam_grids h la ma = Raise TypeError.
Proof.
  intros h la ma axes E A B C O. assert (N : AxNone <> AxObject true) by discriminate. destruct (grids_total h AxNone AxNone axes E A B C N N) as (o & G).
  unfold beam_grids in *. rewrite E in *. cbn [bind] in *. destruct (f_l _); [|discriminate]. destruct (f_m _); [|discriminate]. destruct (f_freq _); [|discriminate].
  destruct O as [-> | ->]; [reflexivity|]. destruct la as [|[|c r]|[]]; try reflexivity. cbn [axis_and_sign]. destruct (Ascii.eqb c "-"); reflexivity.
Qed.
Print Assumptions C77_argument_object.
