(* C65 (storage) and C86: convolution kernels and their Fourier transforms *)
From Coq Require Import Reals Lra.
From Verif Require Import Prelude CRing CplxR KernModel KernSpec KernProofs KernProofs2.
Close Scope R_scope.
Open Scope nat_scope.

(* packing and unpacking are inverse to each other, whatever the new arrays contain before *)
Theorem C65_unpack_pack : forall (A : Type) (junk junk' K : arr A) W os, exists pk up,
  pack_kernel junk K (os * (W + 2)) W os = Ok pk /\ unpack_kernel junk' pk (os * (W + 2)) W os = Ok up /\ forall i, i < os * (W + 2) -> up i = K i.
Proof. intros A. exact (@unpack_pack A). Qed.
Print Assumptions C65_unpack_pack.
Theorem C65_pack_unpack : forall (A : Type) (junk junk' K : arr A) W os, exists up pk,
  unpack_kernel junk K (os * (W + 2)) W os = Ok up /\ pack_kernel junk' up (os * (W + 2)) W os = Ok pk /\ forall i, i < os * (W + 2) -> pk i = K i.
Proof. intros A. exact (@pack_unpack A). Qed.
Print Assumptions C65_pack_unpack.
(* the samples with the same fractional offset t are contiguous in the packed kernel *)
Theorem C65_layout : forall (A : Type) (junk K : arr A) W os, exists pk, pack_kernel junk K (os * (W + 2)) W os = Ok pk /\
  forall t j, t < os -> j < W + 2 -> pk (t * (W + 2) + j) = K (t + os * j).
Proof. intros A. exact (@pack_spec A). Qed.
Print Assumptions C65_layout.

(* kernels exist for odd supports only *)
Theorem C86_odd_support : forall W os a, (W mod 2 = 1 -> exists k k', sinc W os a = Ok k /\ hanningsinc W os a = Ok k') /\
  (W mod 2 = 0 -> sinc W os a = Raise AssertionError /\ hanningsinc W os a = Raise AssertionError).
Proof.
  intros W os a. split; intros H.
  - destruct (uspace_ok W os H) as (u & E). unfold hanningsinc, sinc. rewrite E. cbn [bind]. eauto.
  - unfold hanningsinc, sinc, uspace. rewrite H. split; reflexivity.
Qed.
Print Assumptions C86_odd_support.
(* they are proportional to the window named, at the positions of the samples ... *)
Theorem C86_shape : forall W os a i,
  (forall k, sinc W os a = Ok k -> k i = (sinc_function (sample_position W os i * a) / csum (K := RR) (os * (W + 2)) (fun j => sinc_function (sample_position W os j * a)))%R) /\
  (forall k s, sinc W os 1 = Ok s -> hanningsinc W os a = Ok k -> let v j := (s j * hanning W a (sample_position W os j))%R in k i = (v i / csum (K := RR) (os * (W + 2)) v)%R).
Proof. exact kernel_shape. Qed.
Print Assumptions C86_shape.
(* ... sum to one ... *)
Theorem C86_unit_sum : forall W os a,
  (forall k, sinc W os a = Ok k -> csum (K := RR) (os * (W + 2)) (fun j => sinc_function (sample_position W os j * a)) <> 0%R -> csum (K := RR) (os * (W + 2)) k = 1%R) /\
  (forall k s, sinc W os 1 = Ok s -> hanningsinc W os a = Ok k -> csum (K := RR) (os * (W + 2)) (fun j => s j * hanning W a (sample_position W os j))%R <> 0%R ->
     csum (K := RR) (os * (W + 2)) k = 1%R).
Proof. exact kernel_unit. Qed.
Print Assumptions C86_unit_sum.
(* ... and are symmetric about the central sample *)
Theorem C86_symmetric : forall W os a k i, 0 < os -> sinc W os a = Ok k \/ hanningsinc W os a = Ok k -> i <= os * (W + 1) -> k (os * (W + 1) - i) = k i.
Proof. intros W os a k i Ho [H|H]; [now apply (sinc_mirror W os a)|now apply (hanning_mirror W os a)]. Qed.
Print Assumptions C86_symmetric.
(* the three ways of computing the detapering function give the modulus of the kernel's Fourier transform *)
Theorem C86_detaper_dft : forall npix W os K n, W mod 2 = 1 -> 0 < npix -> exists d, compute_detaper_dft npix K n n W os = Ok d /\
  forall m l, m < npix -> l < npix -> d m l = modulus (transform npix W os n K m l).
Proof. exact dft_value. Qed.
Print Assumptions C86_detaper_dft.
Theorem C86_detaper_separable : forall npix W os K n, W mod 2 = 1 -> exists d, compute_detaper_dft_seperable npix K n W os = Ok d /\
  forall m l, m < npix -> l < npix -> d m l = modulus (transform npix W os n (fun y x => K y * K x)%R m l).
Proof.
  intros npix W os K n H. destruct (separable_value npix W os K n H) as (d & E & V). exists d. split; [exact E|]. intros m l Hm Hl. rewrite transform_outer. now apply V.
Qed.
Print Assumptions C86_detaper_separable.
Theorem C86_detaper_fft : forall npix W os K, W mod 2 = 1 -> 0 < os -> W + 2 <= npix ->
  exists d, compute_detaper npix K (os * (W + 2)) (os * (W + 2)) os = Ok d /\
    forall m l, m < npix -> l < npix -> d m l = modulus (transform npix W os (os * (W + 2)) K m l).
Proof. exact fft_value. Qed.
Print Assumptions C86_detaper_fft.
(* at the centre of the image it is the modulus of the kernel's sum, so a separable unit kernel leaves the centre alone *)
Theorem C86_centre : forall npix W os K n d, 0 < npix -> compute_detaper_dft_seperable npix K n W os = Ok d -> csum (K := RR) n K = 1%R ->
  d (npix / 2) (npix / 2) = 1%R.
Proof. exact centre_one. Qed.
Print Assumptions C86_centre.

Example C65_case : exists pk, pack_kernel (fun _ => 9) (fun i => i) (2 * (1 + 2)) 1 2 = Ok pk /\ map pk (seq 0 6) = [0; 2; 4; 1; 3; 5].
Proof. eexists. split; [reflexivity|]. vm_compute. reflexivity. Qed.
Example C86_sum_case : csum (K := RR) (1 * (1 + 2)) (fun j => sinc_function (sample_position 1 1 j * 1)) <> 0%R.
Proof.
  assert (S : forall x, sinc_function x = if Req_EM_T x 0 then 1%R else (sin (PI * x) / (PI * x))%R) by reflexivity.
  cbn [csum Nat.mul Nat.add]. change (c0 (c := RR)) with 0%R. unfold cadd, RR. cbn [car].
  replace (sample_position 1 1 0 * 1)%R with (-1)%R by (unfold sample_position; cbn; field).
  replace (sample_position 1 1 1 * 1)%R with 0%R by (unfold sample_position; cbn; field).
  replace (sample_position 1 1 2 * 1)%R with 1%R by (unfold sample_position; cbn; field).
  rewrite !S. destruct (Req_EM_T (-1) 0), (Req_EM_T 0 0), (Req_EM_T 1 0); try lra.
  replace (PI * -1)%R with (- PI)%R by ring. rewrite Rmult_1_r, sin_neg, sin_PI. intros X. apply (R1_neq_R0). rewrite <- X. field. apply PI_neq0.
Qed.
Example C86_fft_case : 3 mod 2 = 1 /\ 0 < 7 /\ 3 + 2 <= 5.
Proof. repeat split; lia. Qed.
