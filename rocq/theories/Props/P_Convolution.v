(** C112, C113: convolutions by one-dimensional kernels and the Gaussian filter. *)
From Coq Require Import Lqa.
From Verif Require Import Proofs.ConvolutionProofs2.
Local Open Scope Z_scope.

(** For a symmetric kernel of nonnegative weights and sum 1, and an image at least as wide as the kernel less one, each pixel
    becomes the integer part of the weighted mean of the pixels of its line that the kernel covers, whatever the order of the
    lines, whether or not the output is the input. *)
Theorem C112_horizontal_partial : forall t junk sched auto alias im kernel r imOut, (forall l, Permutation (sched l) l) -> balanced_kernel kernel r -> wf_img im -> typed_img t im ->
  2 * r <= dw (sz im) -> (alias = true \/ receives auto im imOut) ->
  exists out, horizConvolve t junk sched auto alias im kernel imOut = Some (1, out) /\ mean_x kernel r im out.
Proof. exact horiz_ok. Qed.
Print Assumptions C112_horizontal_partial.

(** The same along the columns, the output not being the input. *)
Theorem C112_vertical_partial : forall t junk sched auto im kernel r imOut, legal_sched sched -> balanced_kernel kernel r -> wf_img im -> typed_img t im ->
  2 * r <= dh (sz im) -> receives auto im imOut ->
  exists out, vertConvolve t junk sched auto false im kernel imOut = Some (1, out) /\ mean_y kernel r im out.
Proof. exact vert_ok. Qed.
Print Assumptions C112_vertical_partial.

(** [convolve] takes the means along the columns, then along the lines of the result. *)
Theorem C112_convolve_partial : forall t junk sV sH auto im kernel r imOut, legal_sched sV -> (forall l, Permutation (sH l) l) -> balanced_kernel kernel r -> wf_img im -> typed_img t im ->
  2 * r <= dw (sz im) -> 2 * r <= dh (sz im) -> receives auto im imOut ->
  exists mid out, convolve t junk sV sH auto im kernel imOut = Some (1, out) /\ mean_y kernel r im mid /\ mean_x kernel r mid out.
Proof. exact convolve_ok. Qed.
Print Assumptions C112_convolve_partial.

(** The result is determined: two images of means of the same image are equal. *)
Theorem C112_unique : forall kernel r im out out', mean_x kernel r im out -> mean_x kernel r im out' -> out = out'.
Proof.
  intros kernel r im out out' (W & S & H) (W' & S' & H'). apply img_ext; try assumption; [congruence|]. intros x y z v Hv. destruct (LoopFacts.pixel_exists out' x y z W') as (v' & Hv'); [rewrite S', <- S; apply Hv|]. rewrite (part_unique _ _ _ (H x y z v Hv) (H' x y z v' Hv')). exact Hv'.
Qed.
Print Assumptions C112_unique.

(** Each pixel of the result lies between the extreme values of the square of side [2 * r + 1] about it: nothing overflows,
    and a region of constant value is kept. *)
Theorem C112_range_partial : forall t junk sV sH auto im kernel r imOut out x y z v a b, legal_sched sV -> (forall l, Permutation (sH l) l) -> balanced_kernel kernel r -> wf_img im -> typed_img t im ->
  2 * r <= dw (sz im) -> 2 * r <= dh (sz im) -> receives auto im imOut -> convolve t junk sV sH auto im kernel imOut = Some (1, out) ->
  around r r 0 im x y z a b -> pixel_is out x y z v -> a <= v <= b.
Proof.
  intros t junk sV sH auto im kernel r imOut out x y z v a b LV LH K W T H1 H2 R E A Hv. destruct (convolve_ok t junk sV sH auto im kernel r imOut) as (mid & out' & E' & M & M'); try assumption. rewrite E in E'. injection E' as <-.
  apply (mean_x_bounds kernel r mid out x y z v a b); try assumption; [apply K|apply M|]. intros x' u Hx Hu. apply (mean_y_bounds kernel r im mid x' y z u a b); try assumption; [apply K|]. intros y' u' Hy Hu'. apply (A x' y' z); try assumption. lia.
Qed.
Print Assumptions C112_range_partial.

(** A larger image has a larger result. *)
Theorem C112_monotone_partial : forall t junk sV sH auto im im' kernel r imOut out out' x y z v v', legal_sched sV -> (forall l, Permutation (sH l) l) -> balanced_kernel kernel r ->
  wf_img im -> typed_img t im -> wf_img im' -> typed_img t im' -> sz im = sz im' -> 2 * r <= dw (sz im) -> 2 * r <= dh (sz im) -> receives auto im imOut ->
  convolve t junk sV sH auto im kernel imOut = Some (1, out) -> convolve t junk sV sH auto im' kernel imOut = Some (1, out') ->
  (forall x y z u u', pixel_is im x y z u -> pixel_is im' x y z u' -> u <= u') -> pixel_is out x y z v -> pixel_is out' x y z v' -> v <= v'.
Proof.
  intros t junk sV sH auto im im' kernel r imOut out out' x y z v v' LV LH K W T W' T' S H1 H2 R E E' L Hv Hv'. destruct (convolve_ok t junk sV sH auto im kernel r imOut) as (mid & o & Eo & M & N); try assumption. rewrite E in Eo. injection Eo as <-.
  destruct (convolve_ok t junk sV sH auto im' kernel r imOut) as (mid' & o & Eo & M' & N'); try assumption; [rewrite <- S; assumption..|destruct R as (Wo & R); split; [exact Wo|]; rewrite <- S; exact R|]. rewrite E' in Eo. injection Eo as <-.
  apply (mean_x_mono kernel r mid mid' out out' x y z v v'); try assumption; [apply K|apply M|apply M'|destruct M as (_ & -> & _), M' as (_ & -> & _); exact S|]. intros x0 y0 z0 u u' Hu Hu'. apply (mean_y_mono kernel r im im' mid mid' x0 y0 z0 u u'); try assumption. apply K.
Qed.
Print Assumptions C112_monotone_partial.

Definition bell : list Q := [1 # 4; 1 # 2; 1 # 4]%Q.
Definition line5 : img := Img (Dims 5 1 1) [0; 8; 100; 8; 3].
Definition column4 : img := Img (Dims 1 4 1) [0; 100; 100; 0].
Lemma bell_balanced : balanced_kernel bell 1.
Proof.
  split; [split; [lia|split; [reflexivity|split; [|reflexivity]]]|split; [|reflexivity]].
  - intros k [<-|[<-|[<-|[]]]]; discriminate.
  - intros j Hj. assert (j = 0 \/ j = 1 \/ j = 2) as [-> | [-> | ->]] by lia; reflexivity.
Qed.
Example C112_case : balanced_kernel bell 1 /\ wf_img line5 /\ typed_img UINT8 line5 /\ 2 * 1 <= dw (sz line5) /\
  horizConvolve UINT8 (fun _ => 7) (@rev Z) false true line5 bell line5 = Some (1, Img (Dims 5 1 1) [2; 29; 54; 29; 4]) /\
  vertConvolve UINT8 (fun _ => 7) (@rev Z) true false column4 bell line5 = Some (1, Img (Dims 1 4 1) [33; 75; 75; 33]).
Proof. split; [exact bell_balanced|]. split; [split; [repeat split; cbn; lia|reflexivity]|]. split; [repeat constructor; cbn; lia|]. split; [cbn; lia|]. split; vm_compute; reflexivity. Qed.
Example C112_convolve_case : convolve UINT8 (fun _ => 7) (@rev Z) (@rev Z) false (Img (Dims 3 2 1) [0; 60; 0; 60; 60; 60]) bell (Img (Dims 3 2 1) [0; 0; 0; 0; 0; 0]) = Some (1, Img (Dims 3 2 1) [33; 40; 33; 46; 50; 46]).
Proof. vm_compute. reflexivity. Qed.

(** The weights of the left border are those of the right one: with a kernel that is not symmetric, the mean is wrong there,
    and a constant image is not kept. *)
Theorem C112_asymmetric_refuted : ~ (forall t kernel r im out, averaging kernel r -> (qsum kernel == 1)%Q -> wf_img im -> typed_img t im -> 2 * r <= dw (sz im) ->
  horizConvolve t (fun _ => 0) (fun l => l) false true im kernel im = Some (1, out) -> mean_x kernel r im out).
Proof.
  intros H. specialize (H UINT8 [1 # 2; 1 # 2; 0]%Q 1 (Img (Dims 3 1 1) [10; 10; 10]) (Img (Dims 3 1 1) [5; 10; 10])). destruct H as (_ & _ & H).
  - split; [lia|split; [reflexivity|split; [|reflexivity]]]. intros k [<-|[<-|[<-|[]]]]; discriminate.
  - reflexivity.
  - split; [repeat split; cbn; lia|reflexivity].
  - repeat constructor; cbn; lia.
  - cbn. lia.
  - vm_compute. reflexivity.
  - assert (P : pixel_is (Img (Dims 3 1 1) [5; 10; 10]) 0 0 0 5) by (split; [unfold inside; cbn; lia|reflexivity]). apply H in P. assert (5 = 10) as C; [|discriminate]. apply (part_unique _ _ _ P). vm_compute. left. repeat split; discriminate.
Qed.
Print Assumptions C112_asymmetric_refuted.

(** The pixels away from the borders are not divided by the sum of the weights, those near the borders are: with a kernel
    whose sum is not 1, a constant image is not kept constant. *)
Theorem C112_unnormalised_refuted : ~ (forall t kernel r im out c, averaging kernel r -> (forall j, 0 <= j <= 2 * r -> (kat kernel j == kat kernel (2 * r - j))%Q) -> wf_img im -> typed_img t im -> 2 * r <= dw (sz im) ->
  horizConvolve t (fun _ => 0) (fun l => l) false true im kernel im = Some (1, out) -> (forall v, In v (pixs im) -> v = c) -> exists d, forall v, In v (pixs out) -> v = d).
Proof.
  intros H. destruct (H UINT8 [1; 2; 1]%Q 1 (Img (Dims 3 1 1) [10; 10; 10]) (Img (Dims 3 1 1) [10; 40; 10]) 10) as (d & D).
  - split; [lia|split; [reflexivity|split; [|reflexivity]]]. intros k [<-|[<-|[<-|[]]]]; discriminate.
  - intros j Hj. assert (j = 0 \/ j = 1 \/ j = 2) as [-> | [-> | ->]] by lia; reflexivity.
  - split; [repeat split; cbn; lia|reflexivity].
  - repeat constructor; cbn; lia.
  - cbn. lia.
  - vm_compute. reflexivity.
  - cbn. intros v. lia.
  - pose proof (D 10 ltac:(cbn; tauto)). pose proof (D 40 ltac:(cbn; tauto)). lia.
Qed.
Print Assumptions C112_unnormalised_refuted.

(** On an image narrower than the kernel less one, the buffer is read past its end. *)
Theorem C112_narrow_refuted : ~ (forall t junk kernel r im, balanced_kernel kernel r -> wf_img im -> typed_img t im -> nonempty im -> horizConvolve t junk (fun l => l) false true im kernel im <> None).
Proof.
  intros H. apply (H UINT8 (fun _ => 0) bell 1 (Img (Dims 1 1 1) [10]) bell_balanced); [split; [repeat split; cbn; lia|reflexivity]|repeat constructor; cbn; lia|repeat split; cbn; lia|]. vm_compute. reflexivity.
Qed.
Print Assumptions C112_narrow_refuted.

(** [vertConvolve] in place reads pixels that it has already replaced. *)
Theorem C112_inplace_refuted : ~ (forall t junk kernel r im out, balanced_kernel kernel r -> wf_img im -> typed_img t im -> 2 * r <= dh (sz im) -> vertConvolve t junk (fun l => l) false true im kernel im = Some (1, out) -> mean_y kernel r im out).
Proof.
  intros H. specialize (H UINT8 (fun _ => 0) bell 1 column4 (Img (Dims 1 4 1) [33; 83; 70; 23]) bell_balanced). destruct H as (_ & _ & H).
  - split; [repeat split; cbn; lia|reflexivity].
  - repeat constructor; cbn; lia.
  - cbn. lia.
  - vm_compute. reflexivity.
  - assert (P : pixel_is (Img (Dims 1 4 1) [33; 83; 70; 23]) 0 1 0 83) by (split; [unfold inside; cbn; lia|reflexivity]). apply H in P. assert (83 = 75) as C; [|discriminate]. apply (part_unique _ _ _ P). vm_compute. left. repeat split; discriminate.
Qed.
Print Assumptions C112_inplace_refuted.

(** An empty kernel raises an exception. *)
Theorem C112_empty : forall t junk sched auto alias im imOut, horizConvolve t junk sched auto alias im [] imOut = None /\ vertConvolve t junk sched auto alias im [] imOut = None.
Proof. intros. split; reflexivity. Qed.
Print Assumptions C112_empty.

(** The Gaussian filter is three means, along x, along y, along z, each of the pixels that the kernel covers, for any size of the
    image and any nonnegative weights of positive centre. *)
Theorem C113_means_partial : forall t s1 s2 s3 im kernel r imOut, legal_sched s1 -> legal_sched s2 -> legal_sched s3 -> averaging kernel r -> wf_img im -> typed_img t im -> wf_img imOut -> sz imOut = sz im ->
  exists a b out, gaussianFilter t s1 s2 s3 im kernel r imOut = Some (1, out) /\ mean_x kernel r im a /\ mean_y kernel r a b /\ mean_z kernel r b out.
Proof. exact gauss_ok. Qed.
Print Assumptions C113_means_partial.

(** Each pixel lies between the extreme values of the cube of side [2 * r + 1] about it. *)
Theorem C113_range_partial : forall t s1 s2 s3 im kernel r imOut out x y z v a b, legal_sched s1 -> legal_sched s2 -> legal_sched s3 -> averaging kernel r -> wf_img im -> typed_img t im -> wf_img imOut -> sz imOut = sz im ->
  gaussianFilter t s1 s2 s3 im kernel r imOut = Some (1, out) -> around r r r im x y z a b -> pixel_is out x y z v -> a <= v <= b.
Proof.
  intros t s1 s2 s3 im kernel r imOut out x y z v a b L1 L2 L3 K W T Wo So E A Hv. destruct (gauss_ok t s1 s2 s3 im kernel r imOut) as (p & q & o & E' & M1 & M2 & M3); try assumption. rewrite E in E'. injection E' as <-.
  apply (mean_z_bounds kernel r q out x y z v a b); try assumption; [apply M2|]. intros z' u Hz Hu. apply (mean_y_bounds kernel r p q x y z' u a b); try assumption; [apply M1|]. intros y' u' Hy Hu'. apply (mean_x_bounds kernel r im p x y' z' u' a b); try assumption. intros x' u'' Hx Hu''. apply (A x' y' z'); assumption.
Qed.
Print Assumptions C113_range_partial.

Theorem C113_monotone_partial : forall t s1 s2 s3 im im' kernel r imOut out out' x y z v v', legal_sched s1 -> legal_sched s2 -> legal_sched s3 -> averaging kernel r -> wf_img im -> typed_img t im -> wf_img im' -> typed_img t im' -> sz im = sz im' ->
  wf_img imOut -> sz imOut = sz im -> gaussianFilter t s1 s2 s3 im kernel r imOut = Some (1, out) -> gaussianFilter t s1 s2 s3 im' kernel r imOut = Some (1, out') ->
  (forall x y z u u', pixel_is im x y z u -> pixel_is im' x y z u' -> u <= u') -> pixel_is out x y z v -> pixel_is out' x y z v' -> v <= v'.
Proof.
  intros t s1 s2 s3 im im' kernel r imOut out out' x y z v v' L1 L2 L3 K W T W' T' S Wo So E E' L Hv Hv'.
  destruct (gauss_ok t s1 s2 s3 im kernel r imOut) as (p & q & o & Eo & M1 & M2 & M3); try assumption. rewrite E in Eo. injection Eo as <-. destruct (gauss_ok t s1 s2 s3 im' kernel r imOut) as (p' & q' & o & Eo & M1' & M2' & M3'); try assumption; [congruence|]. rewrite E' in Eo. injection Eo as <-.
  assert (Sp : sz p = sz p') by (destruct M1 as (_ & -> & _), M1' as (_ & -> & _); exact S). assert (Sq : sz q = sz q') by (destruct M2 as (_ & -> & _), M2' as (_ & -> & _); exact Sp).
  apply (mean_z_mono kernel r q q' out out' x y z v v'); try assumption; [apply M2|apply M2'|]. intros x0 y0 z0 u u' Hu Hu'. apply (mean_y_mono kernel r p p' q q' x0 y0 z0 u u'); try assumption; [apply M1|apply M1'|]. intros x1 y1 z1 w w' Hw Hw'. apply (mean_x_mono kernel r im im' p p' x1 y1 z1 w w'); assumption.
Qed.
Print Assumptions C113_monotone_partial.

Definition cube2 : img := Img (Dims 2 2 2) [0; 80; 0; 80; 40; 0; 40; 0].
Example C113_case : averaging [1; 6; 1]%Q 1 /\ wf_img cube2 /\ typed_img UINT8 cube2 /\
  gaussianFilter UINT8 (@rev _) (@rev _) (fun l => l) cube2 [1; 6; 1]%Q 1 (Img (Dims 2 2 2) [1; 2; 3; 4; 5; 6; 7; 8]) = Some (1, Img (Dims 2 2 2) [14; 59; 14; 59; 30; 14; 30; 14]).
Proof.
  split; [split; [lia|split; [reflexivity|split; [|reflexivity]]]; intros k [<-|[<-|[<-|[]]]]; discriminate|]. split; [split; [repeat split; cbn; lia|reflexivity]|]. split; [repeat constructor; cbn; lia|]. vm_compute. reflexivity.
Qed.
