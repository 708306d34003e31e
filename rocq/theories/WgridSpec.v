(* Specification vocabulary for C73 *)
From Coq Require Import Reals.
From Verif Require Import Prelude CRing CplxR WgridModel.
Close Scope R_scope.
Open Scope nat_scope.

(* what is assumed of the library where needed.  Visibilities outside the given rows and channels are not looked at *)
Definition reads_inside (G : ducc) : Prop := forall o d nrow nchan uvw freq (ms ms' : arr2 RC) w f nx ny x y,
  (forall r c, r < nrow -> c < nchan -> ms r c = ms' r c) -> x < nx -> y < ny ->
  ms2dirty G o d nrow nchan uvw freq ms w f nx ny x y = ms2dirty G o d nrow nchan uvw freq ms' w f nx ny x y.
(* gridding respects differences *)
Definition linear_gridding (G : ducc) : Prop := forall o d nrow nchan uvw freq (ms ms' : arr2 RC) w f nx ny x y, x < nx -> y < ny ->
  ms2dirty G o d nrow nchan uvw freq (fun r c => csub (ms r c) (ms' r c)) w f nx ny x y
  = (ms2dirty G o d nrow nchan uvw freq ms w f nx ny x y - ms2dirty G o d nrow nchan uvw freq ms' w f nx ny x y)%R.
(* the image of n + m rows is the sum of the images of the first n and the other m *)
Definition adds_rows (G : ducc) : Prop := forall o d n m nchan uvw freq ms w f nx ny x y, x < nx -> y < ny ->
  ms2dirty G o d (n + m) nchan uvw freq ms w f nx ny x y
  = (ms2dirty G o d n nchan uvw freq ms w f nx ny x y + ms2dirty G o d m nchan (down n uvw) freq (down n ms) (down_opt n w) (down_opt n f) nx ny x y)%R.
(* degridding treats every row by itself *)
Definition row_by_row (G : ducc) : Prop := forall o r0 n nrow nchan uvw freq nx ny image w f r c, r0 + n <= nrow -> r < n -> c < nchan ->
  dirty2ms G o nrow nchan uvw freq nx ny image w f (r0 + r) c = dirty2ms G o n nchan (down r0 uvw) freq nx ny image (down_opt r0 w) (down_opt r0 f) r c.
(* real inner products of visibilities and of images *)
Definition vis_dot (nrow nchan : nat) (v w : arr2 RC) : R := csum (K := RR) nrow (fun r => csum (K := RR) nchan (fun c => re (cmul (v r c) (cconj (w r c))))).
Definition image_dot (nx ny : nat) (a b : arr2 R) : R := csum (K := RR) nx (fun x => csum (K := RR) ny (fun y => (a x y * b x y)%R)).
(* gridding is the adjoint of degridding, with the same weights and mask *)
Definition adjoint_pair (G : ducc) : Prop := forall o d nrow nchan uvw freq image v w f nx ny,
  vis_dot nrow nchan (dirty2ms G o nrow nchan uvw freq nx ny image w f) v = image_dot nx ny image (ms2dirty G o d nrow nchan uvw freq v w f nx ny).
(* degridding with weights multiplies by the weights *)
Definition weight_at (w : option (arr2 R)) (r c : nat) : R := match w with Some w => w r c | None => 1%R end.
Definition weights_multiply (G : ducc) : Prop := forall o nrow nchan uvw freq nx ny image w f r c, r < nrow -> c < nchan ->
  dirty2ms G o nrow nchan uvw freq nx ny image w f r c = cmul (ofR (weight_at w r c)) (dirty2ms G o nrow nchan uvw freq nx ny image None f r c).

(* the lowest bin starts at low, and every bin ends within nchan channels of it *)
Definition bins_in (nchan nidx : nat) (idx counts : arr nat) (low : nat) : Prop :=
  (exists i, i < nidx /\ idx i = low) /\ forall i, i < nidx -> low <= idx i /\ idx i + counts i <= low + nchan.
(* the bins follow one another and cover the channels *)
Definition bins_cover (nband : nat) (idx counts : arr nat) (nchan : nat) : Prop :=
  idx 0 = 0 /\ (forall b, b < nband -> idx (S b) = idx b + counts b) /\ idx nband = nchan.
(* every block of bands has its channels in the block of channels of the same position, starting with its first *)
Fixpoint aligned (b0 : nat) (bands : list nat) (q0 : nat) (chans : list nat) (idx counts : arr nat) : Prop :=
  match bands, chans with
  | [], [] => True
  | nb :: bands, nc :: chans => 0 < nc /\ (exists b, b0 <= b < b0 + nb /\ idx b = q0) /\ (forall b, b0 <= b < b0 + nb -> q0 <= idx b /\ idx b + counts b <= q0 + nc) /\
      aligned (b0 + nb) bands (q0 + nc) chans idx counts
  | _, _ => False
  end.

(* an exact library: the measurement equation, without the curvature of the sky *)
Definition phase_of (o : opts) (uvw : arr2 R) (freq : arr R) (nx ny r c x y : nat) : R :=
  (2 * PI * freq c / 299792458 * (uvw r 0%nat * ((INR x - INR (nx / 2)%nat) * pixsize_x o) + uvw r 1%nat * ((INR y - INR (ny / 2)%nat) * pixsize_y o)))%R.
Definition used (f : option (arr2 bool)) (r c : nat) : bool := match f with Some f => f r c | None => true end.
Definition exact : ducc :=
  {| ms2dirty := fun o d nrow nchan uvw freq ms w f nx ny x y =>
       csum (K := RR) nrow (fun r => csum (K := RR) nchan (fun c => if used f r c then (weight_at w r c * re (cmul (ms r c) (cis (phase_of o uvw freq nx ny r c x y))))%R else 0%R));
     dirty2ms := fun o nrow nchan uvw freq nx ny image w f r c =>
       if used f r c then cmul (ofR (weight_at w r c)) (csum nx (fun x => csum ny (fun y => cmul (ofR (image x y)) (cis (- phase_of o uvw freq nx ny r c x y))))) else c0 |}.
