(** Theorems for C102 to C104: similarity indices, Hamming distance, Hausdorff distance. *)
From Verif Require Import Props.P_Morph Props.P_MaxTree Proofs.CompareProofs2.
Local Open Scope Z_scope.

(** ** C102.  The indices, from the numbers of true and false positives and negatives, both sides of each quotient being
    moved by one half. *)
Theorem C102_indices_partial : forall t gt im, cmp_call t gt im -> binary gt -> binary im ->
  indexJaccard gt im = Some (share (TP gt im) (TP gt im + FP gt im + FN gt im)) /\
  indexPrecision gt im = Some (share (TP gt im) (TP gt im + FP gt im)) /\
  indexSensitivity gt im = Some (share (TP gt im) (TP gt im + FN gt im)) /\
  indexRecall gt im = Some (share (TP gt im) (TP gt im + FN gt im)) /\
  indexSpecificity gt im = Some (share (TN gt im) (TN gt im + FP gt im)) /\
  indexFallOut gt im = Some (share (FP gt im) (TN gt im + FP gt im)) /\
  indexMissRate gt im = Some (share (FN gt im) (TP gt im + FN gt im)) /\
  indexOverlap gt im = Some (share (TP gt im) (TP gt im + Z.min (FN gt im) (FP gt im))).
Proof. exact indices. Qed.
Print Assumptions C102_indices_partial.

(** Jaccard: symmetric, between 0 and 1, and 1 exactly when the two objects are the same. *)
Theorem C102_jaccard : forall t gt im, cmp_call t gt im -> binary gt -> binary im ->
  exists q, indexJaccard gt im = Some q /\ indexJaccard im gt = Some q /\ (0 < q <= 1)%Q /\
    ((q == 1)%Q <-> forall x y z u v, pixel_is gt x y z u -> pixel_is im x y z v -> (u = 0 <-> v = 0)).
Proof. exact jaccard_range. Qed.
Print Assumptions C102_jaccard.

(** Ruzicka, on grey levels: symmetric, between 0 and 1, and 1 exactly on equal images. *)
Theorem C102_ruzicka : forall t gt im, cmp_call t gt im -> (tmax t - tmin t) * (dw (sz gt) * dh (sz gt) * dd (sz gt)) <= 2 ^ 53 ->
  exists q, indexRuzicka gt im = Some q /\ indexRuzicka im gt = Some q /\
    q = share (Zsum (map2 Z.min (pixs gt) (pixs im))) (Zsum (map2 Z.max (pixs gt) (pixs im))) /\ (0 < q <= 1)%Q /\ ((q == 1)%Q <-> gt = im).
Proof. exact ruzicka. Qed.
Print Assumptions C102_ruzicka.

(** The F-score is the weighted harmonic mean of precision and recall and lies between them; exchanging the images
    exchanges precision and recall. *)
Theorem C102_fscore : forall t gt im beta, cmp_call t gt im -> binary gt -> binary im ->
  exists p r f, indexPrecision gt im = Some p /\ indexRecall gt im = Some r /\ indexFScore gt im beta = Some f /\
    (f * (beta * beta * p + r) == (1 + beta * beta) * p * r)%Q /\ (p <= r -> p <= f <= r)%Q /\ (r <= p -> r <= f <= p)%Q /\
    indexPrecision im gt = Some r /\ indexRecall im gt = Some p.
Proof. exact fscore. Qed.
Print Assumptions C102_fscore.

Theorem C102_overlap : forall t gt im, cmp_call t gt im -> binary gt -> binary im ->
  exists o p r, indexOverlap gt im = Some o /\ indexPrecision gt im = Some p /\ indexRecall gt im = Some r /\ (p <= o <= 1)%Q /\ (r <= o)%Q /\ (o = p \/ o = r).
Proof. exact overlap_max. Qed.
Print Assumptions C102_overlap.

(** Accuracy: of two binary images with the same true value, and of two other images with a threshold. *)
Theorem C102_accuracy_partial : forall t c th gt im, cmp_call t gt im -> two_valued gt c -> two_valued im c ->
  indexAccuracy t th gt im = Some (inject_Z (TP gt im + TN gt im) / inject_Z (TP gt im + FP gt im + FN gt im + TN gt im))%Q.
Proof. exact accuracy_binary. Qed.
Print Assumptions C102_accuracy_partial.

Theorem C102_accuracy_grey : forall t th gt im, cmp_call t gt im -> ~ (binary gt /\ binary im) ->
  indexAccuracy t th gt im = Some (inject_Z (count_where (fun u v => Z.abs (u - v) <=? th) gt im) / inject_Z (dw (sz gt) * dh (sz gt) * dd (sz gt)))%Q.
Proof. exact accuracy_general. Qed.
Print Assumptions C102_accuracy_grey.

(** With different true values, the true positives do not count as correct. *)
Theorem C102_accuracy_refuted : exists gt im, cmp_call UINT8 gt im /\ binary gt /\ binary im /\ FP gt im = 0 /\ FN gt im = 0 /\ indexAccuracy UINT8 0 gt im = Some (1 # 2).
Proof.
  exists (Img (Dims 2 1 1) [0; 1]), (Img (Dims 2 1 1) [0; 255]). split; [|split; [|split]].
  - split; [reflexivity|]. split; [split; [repeat split; cbn; lia|reflexivity]|]. split; [split; [repeat split; cbn; lia|reflexivity]|]. split; [reflexivity|]. split; [repeat constructor; cbn; lia|]. split; [repeat constructor; cbn; lia|]. cbn. lia.
  - apply binary_test. reflexivity.
  - apply binary_test. reflexivity.
  - repeat split; vm_compute; reflexivity.
Qed.
Print Assumptions C102_accuracy_refuted.

(** On signed types, the infimum with a negative value is not the intersection: a precision above 1. *)
Theorem C102_signed_refuted : exists gt im q, wf_img gt /\ wf_img im /\ sz gt = sz im /\ typed_img INT8 gt /\ typed_img INT8 im /\ binary gt /\ binary im /\
  TP gt im = 0 /\ indexPrecision gt im = Some q /\ (1 < q)%Q.
Proof.
  exists (Img (Dims 2 1 1) [-1; 0]), (Img (Dims 2 1 1) [0; -1]), (10 # 6). do 2 (split; [split; [repeat split; cbn; lia|reflexivity]|]). split; [reflexivity|]. split; [repeat constructor; cbn; lia|]. split; [repeat constructor; cbn; lia|].
  split; [apply binary_test; reflexivity|]. split; [apply binary_test; reflexivity|]. repeat split; vm_compute; reflexivity.
Qed.
Print Assumptions C102_signed_refuted.

Definition blob_a : img := Img (Dims 4 3 1) [255;255;0;0; 255;255;0;0; 0;0;0;0].
Definition blob_b : img := Img (Dims 4 3 1) [0;255;255;0; 0;255;255;255; 0;0;0;0].
Lemma blobs_call : cmp_call UINT8 blob_a blob_b.
Proof. split; [reflexivity|]. split; [split; [repeat split; cbn; lia|reflexivity]|]. split; [split; [repeat split; cbn; lia|reflexivity]|]. split; [reflexivity|]. split; [repeat constructor; cbn; lia|]. split; [repeat constructor; cbn; lia|]. cbn. lia. Qed.
Example C102_case : cmp_call UINT8 blob_a blob_b /\ two_valued blob_a 255 /\ two_valued blob_b 255 /\
  (TP blob_a blob_b, FP blob_a blob_b, FN blob_a blob_b, TN blob_a blob_b) = (2, 3, 2, 5) /\
  indexJaccard blob_a blob_b = Some (10 # 30) /\ indexPrecision blob_a blob_b = Some (10 # 22) /\ indexRecall blob_a blob_b = Some (10 # 18) /\ indexAccuracy UINT8 0 blob_a blob_b = Some (7 # 12).
Proof.
  split; [exact blobs_call|]. split; [split; [lia|cbn; repeat split; auto 12; intuition]|]. split; [split; [lia|cbn; repeat split; auto 12; intuition]|]. repeat split; vm_compute; reflexivity.
Qed.

(** ** C103.  The Hamming distance counts the different pixels, and is a distance on the images of a size. *)
Theorem C103_hamming_partial : forall t gt im, cmp_call t gt im -> distanceHamming t gt im = Some (count_where (fun u v => negb (u =? v)) gt im).
Proof. exact hamming_counts. Qed.
Print Assumptions C103_hamming_partial.

Theorem C103_metric : forall t a b c, cmp_call t a b -> cmp_call t b c ->
  exists ab ba bc ac, distanceHamming t a b = Some ab /\ distanceHamming t b a = Some ba /\ distanceHamming t b c = Some bc /\ distanceHamming t a c = Some ac /\
    ba = ab /\ (ab = 0 <-> a = b) /\ 0 <= ac <= ab + bc.
Proof. exact hamming_metric. Qed.
Print Assumptions C103_metric.

(** The error code, unsigned: two images of different sizes are at a huge distance, not an error that a caller sees. *)
Theorem C103_sizes_refuted : forall t gt im, sz gt <> sz im -> exists d, distanceHamming t gt im = Some d /\ 0 <= d /\ d <> -98.
Proof.
  intros t gt im H. exists (2 ^ 64 - 98). unfold distanceHamming. assert (same_size gt im = false) as ->; [|split; [reflexivity|lia]].
  apply not_true_is_false. intros E. apply H. unfold same_size, width, height, depth in E. destruct (sz gt), (sz im). cbn in E. f_equal; lia.
Qed.
Print Assumptions C103_sizes_refuted.

Example C103_case : cmp_call UINT8 blob_a blob_b /\ distanceHamming UINT8 blob_a blob_b = Some 5.
Proof. split; [exact blobs_call|]. vm_compute. reflexivity. Qed.

(** ** C104.  distanceHausdorff is the Hausdorff distance of the inner borders of the two objects, for any executions of
    the two gradients; [rt] is any increasing square root with values that a [double] holds. *)
Theorem C104_borders_partial : forall rt zero dmax bad t junk cs gt im c c',
  is_signed t = false -> good_img gt -> good_img im -> sz gt = sz im -> typed_img t gt -> typed_img t im -> 2 <= dh (sz gt) -> two_valued gt c -> two_valued im c' ->
  (forall i k, legal_conf (dh (sz gt)) (cs i k)) -> (forall a b, 0 <= a <= b -> rt a <= rt b) -> (forall a, 0 <= a -> rt a <= dmax) -> zero = rt 0 ->
  (exists p, edge_of gt p) -> (exists q, edge_of im q) ->
  exists h, distanceHausdorff rt zero dmax bad t junk cs gt im = Some (rt h) /\ hausdorff_sq (edge_of gt) (edge_of im) h.
Proof. exact hausdorff. Qed.
Print Assumptions C104_borders_partial.

(** The specification fixes the number. *)
Theorem C104_unique : forall A B h h', hausdorff_sq A B h -> hausdorff_sq A B h' -> h = h'.
Proof.
  intros A B. assert (K : forall h h', hausdorff_sq A B h -> hausdorff_sq A B h' -> h <= h').
  { intros h h' (_ & _ & [(p & Hp & H)|(q & Hq & H)]) (H1 & H2 & _); [destruct (H1 p Hp) as (q & Hq & L); specialize (H q Hq); lia|destruct (H2 q Hq) as (p & Hp & L); specialize (H p Hp); lia]. }
  intros h h' H H'. pose proof (K _ _ H H'). pose proof (K _ _ H' H). lia.
Qed.
Print Assumptions C104_unique.

(** On a plane image of two values, there is always a border. *)
Theorem C104_plane : forall im c, wf_img im -> dd (sz im) = 1 -> two_valued im c -> exists p, edge_of im p.
Proof. intros im c W D B. destruct (C43_connecting im W) as (H & _). destruct (H D) as (_ & Co & _). exact (edge_exists im c W Co B). Qed.
Print Assumptions C104_plane.

Theorem C104_borders_plane : forall rt zero dmax bad t junk cs gt im c c',
  is_signed t = false -> good_img gt -> good_img im -> sz gt = sz im -> typed_img t gt -> typed_img t im -> 2 <= dh (sz gt) -> dd (sz gt) = 1 -> two_valued gt c -> two_valued im c' ->
  (forall i k, legal_conf (dh (sz gt)) (cs i k)) -> (forall a b, 0 <= a <= b -> rt a <= rt b) -> (forall a, 0 <= a -> rt a <= dmax) -> zero = rt 0 ->
  exists h, distanceHausdorff rt zero dmax bad t junk cs gt im = Some (rt h) /\ hausdorff_sq (edge_of gt) (edge_of im) h.
Proof.
  intros rt zero dmax bad t junk cs gt im c c' U G1 G2 Es T1 T2 Hh Hd B1 B2 L Mo Tp E0. apply (hausdorff rt zero dmax bad t junk cs gt im c c'); auto; [apply (C104_plane gt c)|apply (C104_plane im c')]; auto; [apply G1|apply G2|rewrite <- Es; exact Hd].
Qed.
Print Assumptions C104_borders_plane.

Theorem C104_not_binary : forall rt zero dmax bad t junk cs gt im, sz gt = sz im -> ~ (binary gt /\ binary im) -> distanceHausdorff rt zero dmax bad t junk cs gt im = Some zero.
Proof.
  intros rt zero dmax bad t junk cs gt im Es NB. unfold distanceHausdorff. rewrite (MorphProofs.same_size_true gt im Es). cbn [negb]. destruct (isBinary gt) eqn:E1, (isBinary im) eqn:E2; try reflexivity. elim NB. split; apply binary_test; assumption.
Qed.
Print Assumptions C104_not_binary.

(** It is not the Hausdorff distance of the objects: a full square and the same one hollow are at distance 0. *)
Definition root0 (a : Z) : Z := Z.min a 10000.
Lemma root0_ok : (forall a b, 0 <= a <= b -> root0 a <= root0 b) /\ (forall a, 0 <= a -> root0 a <= 10000) /\ 0 = root0 0.
Proof. unfold root0. repeat split; intros; lia. Qed.
Definition solid : img := Img (Dims 7 7 1) [0;0;0;0;0;0;0; 0;9;9;9;9;9;0; 0;9;9;9;9;9;0; 0;9;9;9;9;9;0; 0;9;9;9;9;9;0; 0;9;9;9;9;9;0; 0;0;0;0;0;0;0].
Definition hollow : img := Img (Dims 7 7 1) [0;0;0;0;0;0;0; 0;9;9;9;9;9;0; 0;9;0;0;0;9;0; 0;9;0;0;0;9;0; 0;9;0;0;0;9;0; 0;9;9;9;9;9;0; 0;0;0;0;0;0;0].
Definition object (im : img) (p : Z * Z * Z) : Prop := let '(x, y, z) := p in exists v, pixel_is im x y z v /\ v <> 0.
Theorem C104_objects_refuted : exists gt im, cmp_call UINT8 gt im /\ binary gt /\ binary im /\
  distanceHausdorff root0 0 10000 (-98) UINT8 (fun _ => 0) (fun _ => one_thread) gt im = Some (root0 0) /\ gt <> im /\ ~ hausdorff_sq (object gt) (object im) 0.
Proof.
  exists solid, hollow. split.
  { split; [reflexivity|]. split; [split; [repeat split; cbn; lia|reflexivity]|]. split; [split; [repeat split; cbn; lia|reflexivity]|]. split; [reflexivity|]. split; [repeat constructor; cbn; lia|]. split; [repeat constructor; cbn; lia|]. cbn. lia. }
  split; [apply binary_test; reflexivity|]. split; [apply binary_test; reflexivity|]. split; [vm_compute; reflexivity|]. split; [discriminate|].
  intros (H & _). destruct (H (3, 3, 0)) as (((x, y), z) & (v & Pv & Nv) & L); [exists 9; split; [split; [unfold inside; cbn; lia|reflexivity]|discriminate]|].
  unfold sq_dist in L. pose proof (Z.square_nonneg (3 - x)). pose proof (Z.square_nonneg (3 - y)). pose proof (Z.square_nonneg (0 - z)). assert (x = 3 /\ y = 3 /\ z = 0) as (-> & -> & ->) by nia.
  destruct Pv as (_ & R). vm_compute in R. injection R as <-. congruence.
Qed.
Print Assumptions C104_objects_refuted.

(** In three dimensions the element is flat: full slices have no border.  Two different ones are at distance 0, and one
    is at the greatest distance from any image that has a border. *)
Definition low_slice : img := Img (Dims 2 2 2) [9;9;9;9; 0;0;0;0].
Definition high_slice : img := Img (Dims 2 2 2) [0;0;0;0; 9;9;9;9].
Definition both_but_one : img := Img (Dims 2 2 2) [9;9;9;9; 9;9;9;0].
Theorem C104_slices_refuted : exists a b c, cmp_call UINT8 a b /\ cmp_call UINT8 a c /\ binary a /\ binary b /\ binary c /\ a <> b /\
  distanceHausdorff root0 0 10000 (-98) UINT8 (fun _ => 0) (fun _ => one_thread) a b = Some (root0 0) /\
  distanceHausdorff root0 0 10000 (-98) UINT8 (fun _ => 0) (fun _ => one_thread) a c = Some 10000.
Proof.
  exists low_slice, high_slice, both_but_one.
  do 2 (split; [split; [reflexivity|]; split; [split; [repeat split; cbn; lia|reflexivity]|]; split; [split; [repeat split; cbn; lia|reflexivity]|]; split; [reflexivity|]; split; [repeat constructor; cbn; lia|]; split; [repeat constructor; cbn; lia|]; cbn; lia|]).
  do 3 (split; [apply binary_test; reflexivity|]). split; [discriminate|]. split; vm_compute; reflexivity.
Qed.
Print Assumptions C104_slices_refuted.

Example C104_case : good_img blob_a /\ good_img blob_b /\ two_valued blob_a 255 /\ two_valued blob_b 255 /\ (forall i k : nat, legal_conf (dh (sz blob_a)) (one_thread k)) /\
  (forall a b, 0 <= a <= b -> root0 a <= root0 b) /\ (forall a, 0 <= a -> root0 a <= 10000) /\ 0 = root0 0 /\
  distanceHausdorff root0 0 10000 (-98) UINT8 (fun _ => 0) (fun _ => one_thread) blob_a blob_b = Some (root0 4).
Proof.
  split; [apply good_ex; [apply blobs_call|cbn; lia|cbn; lia|cbn; lia]|]. split; [apply good_ex; [apply blobs_call|cbn; lia|cbn; lia|cbn; lia]|]. split; [apply C102_case|]. split; [apply C102_case|]. split; [intros; apply one_thread_legal; cbn; lia|].
  split; [apply root0_ok|]. split; [apply root0_ok|]. split; [reflexivity|]. vm_compute. reflexivity.
Qed.
