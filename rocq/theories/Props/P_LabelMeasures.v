(** C124 and C125: labels replaced by the greatest value and by the mean of the component. *)
From Verif Require Export Proofs.LabelMeasureProofs2 Props.P_Label.
Local Open Scope Z_scope.

(** ** C124.  labelWithMaxima writes at every nonzero pixel of the second image the greatest value of the first on its
    component.  Partial: the values have to be below the maximum of the type of the labels. *)
Theorem C124_maxima_partial : forall fuel t1 t2 junk dse se im labin out reps, sz im = sz out -> sz labin = sz im -> wf_img im -> typed_img t1 im ->
  label_ok se labin -> label_enough labin fuel -> reaches_all (scaled se) eq labin reps -> Z.of_nat (length reps) < tmax t2 ->
  wf_img out -> (exists x y z v, pixel_is labin x y z v /\ v <> 0) ->
  (forall x y z v u, pixel_is labin x y z v -> v <> 0 -> pixel_is im x y z u -> tmin t2 <= u < tmax t2) ->
  exists res, labelWithMaxima fuel t1 t2 junk dse se im labin out = Some (Some (1, res)) /\ sz res = sz im /\ wf_img res /\
    forall x y z v a, pixel_is labin x y z v -> pixel_is res x y z a ->
      (v = 0 -> a = 0) /\
      (v <> 0 -> (exists x' y' z', linked (scaled se) eq labin x y z x' y' z' /\ pixel_is im x' y' z' a) /\
                 forall x' y' z' u, linked (scaled se) eq labin x y z x' y' z' -> pixel_is im x' y' z' u -> u <= a).
Proof. exact labelWithMaxima_ok. Qed.
Print Assumptions C124_maxima_partial.

(** A pixel of the maximum of the type, on any component, and nothing is written: 0 is returned, although the value can be
    written.  The same for the values beyond the type. *)
Theorem C124_maxima_refuted : forall fuel t1 t2 junk dse se im labin out reps, sz im = sz out -> sz labin = sz im -> wf_img im -> typed_img t1 im ->
  label_ok se labin -> label_enough labin fuel -> reaches_all (scaled se) eq labin reps -> Z.of_nat (length reps) < tmax t2 ->
  forall x y z v u, pixel_is labin x y z v -> v <> 0 -> pixel_is im x y z u -> tmax t2 <= u ->
  labelWithMaxima fuel t1 t2 junk dse se im labin out = Some (Some (0, out)).
Proof. exact labelWithMaxima_reject. Qed.
Print Assumptions C124_maxima_refuted.

(** The image of the examples has four components. *)
Lemma islands_reps t2 : 4 < tmax t2 -> exists reps, reaches_all (scaled (CrossSE 1)) eq islands reps /\ Z.of_nat (length reps) < tmax t2.
Proof.
  intros H. destruct (C28_label 15 UINT8 (HexSE 1) (CrossSE 1) islands islands eq_refl islands_ok) as (n & res & E & (_ & _ & _ & _ & ((reps & Hr & Hn) & _) & _)); [unfold label_enough; cbn; lia|].
  exists reps. split; [exact Hr|]. rewrite Hn. assert (Q : label 15 UINT8 (HexSE 1) (CrossSE 1) false islands islands = Some (Some (4, false, Img (Dims 5 3 1) [1;1;0;2;2; 0;1;0;0;2; 3;0;0;4;0]))) by (vm_compute; reflexivity).
  rewrite Q in E. injection E as <- _. exact H.
Qed.

Definition heights : img := Img (Dims 5 3 1) [9;4;200;1;250; 254;6;3;8;30; 2;77;5;0;255].
Example C124_case : label_ok (CrossSE 1) islands /\ wf_img heights /\ typed_img UINT8 heights /\ sz islands = sz heights /\
  (exists reps, reaches_all (scaled (CrossSE 1)) eq islands reps /\ Z.of_nat (length reps) < tmax UINT8) /\
  (forall x y z v u, pixel_is islands x y z v -> v <> 0 -> pixel_is heights x y z u -> tmin UINT8 <= u < tmax UINT8) /\
  labelWithMaxima 15 UINT8 UINT8 (fun _ => 0) (HexSE 1) (CrossSE 1) heights islands islands = Some (Some (1, Img (Dims 5 3 1) [9;9;0;250;250; 0;9;0;0;250; 2;0;0;0;0])) /\
  labelWithMaxima 15 UINT8 INT16 (fun _ => 0) (HexSE 1) (CrossSE 1) heights islands islands = Some (Some (1, Img (Dims 5 3 1) [9;9;0;250;250; 0;9;0;0;250; 2;0;0;0;0])) /\
  labelWithMaxima 15 UINT8 UINT8 (fun _ => 0) (HexSE 1) (CrossSE 1) (Img (Dims 5 3 1) [9;4;200;1;255; 254;6;3;8;30; 2;77;5;0;255]) islands islands = Some (Some (0, islands)).
Proof.
  split; [exact islands_ok|]. split; [split; [repeat split; cbn; lia|reflexivity]|]. split; [repeat constructor; cbn; lia|]. split; [reflexivity|]. split; [apply islands_reps; cbn; lia|].
  split; [|repeat split; vm_compute; reflexivity]. intros x y z v u P Hv (_ & Q). destruct (islands_pixel x y z v P) as (k & Hk & -> & R & _ & _ & _). cbn [sz heights dw dh] in Q. set (k := voxel_offset 5 3 x y z) in *.
  assert (C : k = 0 \/ k = 1 \/ k = 2 \/ k = 3 \/ k = 4 \/ k = 5 \/ k = 6 \/ k = 7 \/ k = 8 \/ k = 9 \/ k = 10 \/ k = 11 \/ k = 12 \/ k = 13 \/ k = 14) by lia. clearbody k. cbn.
  repeat (destruct C as [-> | C]; [cbn in Q, R; injection Q as <-; injection R as <-; lia|]). subst k. cbn in Q, R. injection Q as <-. injection R as <-. lia.
Qed.

(** ** C125.  labelWithMean writes at every nonzero pixel of the second image the integer part of the mean of the first on its
    component.  Partial: the means have to be below the maximum of the type of the labels. *)
Theorem C125_mean_partial : forall fuel t1 t2 junk dse se im labin out reps, sz im = sz out -> sz labin = sz im -> wf_img im ->
  (forall u, In u (pixs im) -> Z.abs u <= 2 ^ 22) ->
  label_ok se labin -> label_enough labin fuel -> reaches_all (scaled se) eq labin reps -> Z.of_nat (length reps) < tmax t2 ->
  wf_img out -> (exists x y z v, pixel_is labin x y z v /\ v <> 0) ->
  (forall x y z v l, pixel_is labin x y z v -> v <> 0 -> component_list (scaled se) eq labin x y z l -> sum_on im l < tmax t2 * Z.of_nat (length l)) ->
  typed_img t1 im ->
  exists res, labelWithMean fuel t1 t2 junk dse se im labin out = Some (Some (1, res)) /\ sz res = sz im /\ wf_img res /\
    forall x y z v a, pixel_is labin x y z v -> pixel_is res x y z a ->
      (v = 0 -> a = 0) /\ (v <> 0 -> exists l, component_list (scaled se) eq labin x y z l /\ a = Z.quot (sum_on im l) (Z.of_nat (length l))).
Proof. exact labelWithMean_ok. Qed.
Print Assumptions C125_mean_partial.

(** The means are written in an image of the type of the first image, but compared with the maximum of the type of the labels:
    from there on, nothing is written and 0 is returned. *)
Theorem C125_mean_refuted : forall fuel t1 t2 junk dse se im labin out reps, sz im = sz out -> sz labin = sz im -> wf_img im ->
  (forall u, In u (pixs im) -> Z.abs u <= 2 ^ 22) ->
  label_ok se labin -> label_enough labin fuel -> reaches_all (scaled se) eq labin reps -> Z.of_nat (length reps) < tmax t2 ->
  forall x y z v l, pixel_is labin x y z v -> v <> 0 -> component_list (scaled se) eq labin x y z l -> tmax t2 * Z.of_nat (length l) <= sum_on im l ->
  labelWithMean fuel t1 t2 junk dse se im labin out = Some (Some (0, out)).
Proof. exact labelWithMean_reject. Qed.
Print Assumptions C125_mean_refuted.

(** A 16-bit image and 8-bit labels: a mean of 300 is refused.  Negative means are rounded towards zero. *)
Definition tall : img := Img (Dims 5 3 1) [9;4;200;1;250; 254;6;3;8;30; 2;77;5;300;255].
Definition deep : img := Img (Dims 5 3 1) [-9;-4;0;1;0; 0;-6;0;0;1; -2;0;0;3;0].
Example C125_case : label_ok (CrossSE 1) islands /\ wf_img heights /\ typed_img UINT8 heights /\ (forall u, In u (pixs heights) -> Z.abs u <= 2 ^ 22) /\
  (exists reps, reaches_all (scaled (CrossSE 1)) eq islands reps /\ Z.of_nat (length reps) < tmax UINT8) /\
  (forall x y z v l, pixel_is islands x y z v -> v <> 0 -> component_list (scaled (CrossSE 1)) eq islands x y z l -> sum_on heights l < tmax UINT8 * Z.of_nat (length l)) /\
  labelWithMean 15 UINT8 UINT8 (fun _ => 0) (HexSE 1) (CrossSE 1) heights islands islands = Some (Some (1, Img (Dims 5 3 1) [6;6;0;93;93; 0;6;0;0;93; 2;0;0;0;0])) /\
  labelWithMean 15 INT16 UINT8 (fun _ => 0) (HexSE 1) (CrossSE 1) deep islands islands = Some (Some (1, Img (Dims 5 3 1) [-6;-6;0;0;0; 0;-6;0;0;0; -2;0;0;3;0])) /\
  labelWithMean 15 UINT16 UINT8 (fun _ => 0) (HexSE 1) (CrossSE 1) tall islands islands = Some (Some (0, islands)) /\
  labelWithMean 15 UINT16 UINT16 (fun _ => 0) (HexSE 1) (CrossSE 1) tall islands islands = Some (Some (1, Img (Dims 5 3 1) [6;6;0;93;93; 0;6;0;0;93; 2;0;0;300;0])).
Proof.
  split; [exact islands_ok|]. split; [split; [repeat split; cbn; lia|reflexivity]|]. split; [repeat constructor; cbn; lia|]. split; [intros u Hu; cbn in Hu; lia|]. split; [apply islands_reps; cbn; lia|].
  split.
  { intros x y z v l P Hv Cl. destruct (Z.lt_ge_cases (sum_on heights l) (tmax UINT8 * Z.of_nat (length l))) as [H|H]; [exact H|]. exfalso. destruct (islands_reps UINT8 ltac:(cbn; lia)) as (reps & Hr & Hn).
    assert (Q : labelWithMean 15 UINT8 UINT8 (fun _ => 0) (HexSE 1) (CrossSE 1) heights islands islands = Some (Some (0, islands))).
    { apply (C125_mean_refuted 15 UINT8 UINT8 (fun _ => 0) (HexSE 1) (CrossSE 1) heights islands islands reps) with x y z v l; try assumption; try reflexivity; [split; [repeat split; cbn; lia|reflexivity]|intros u Hu; cbn in Hu; lia|exact islands_ok|unfold label_enough; cbn; lia]. }
    vm_compute in Q. discriminate. }
  repeat split; vm_compute; reflexivity.
Qed.
