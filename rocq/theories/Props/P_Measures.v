(** C12, C15 to C18, C45: histograms, measures, blobs and lookup tables. *)
From Verif Require Import Spec.ImageSpec Model.Measures Proofs.MeasureProofs Proofs.MeasureProofs2.
From Coq Require Import Sorted.

(** C12.  Histogram in a caller-provided array. *)
Theorem C12_histogram_array : forall t im, t <> UINT32 -> wf_img im -> typed_img t im ->
  exists h, histogram_array t im = Some h /\ Z.of_nat (length h) = tcard t /\
    (forall v, inty t v -> rd h (v - tmin t) = Some (Z.of_nat (count_occ Z.eq_dec (pixs im) v))) /\
    Zsum h = Z.of_nat (length (pixs im)).
Proof. exact histogram_array_ok. Qed.
Print Assumptions C12_histogram_array.

Theorem C12_histogram_array_mask : forall t im mask,
  t <> UINT32 -> wf_img im -> typed_img t im -> length (pixs mask) = length (pixs im) ->
  exists h, histogram_array_mask t im mask = Some h /\ Z.of_nat (length h) = tcard t /\
    (forall v, inty t v -> rd h (v - tmin t) = Some (Z.of_nat (count_occ Z.eq_dec (counted im (Some mask)) v))) /\
    Zsum h = Z.of_nat (length (counted im (Some mask))).
Proof. exact histogram_array_mask_ok. Qed.
Print Assumptions C12_histogram_array_mask.

(** Histogram returned as a map, with or without mask and with or without the keys of the whole type:
    sorted keys, the exact count at every value, every pixel value is a key, every key is a value of
    the type; with [fullRange], all values of the type are keys as soon as one pixel differs from
    the minimum of the type. *)
Theorem C12_histogram_map : forall t im mask fullRange, wf_img im -> typed_img t im -> pixs im <> [] ->
  Z.of_nat (length (pixs im)) < 2 ^ 32 -> (forall m, mask = Some m -> length (pixs m) = length (pixs im)) ->
  exists h, histogram_map t im mask fullRange = Some h /\ StronglySorted Z.lt (mkeys h) /\
    (forall v, mget 0 v h = Z.of_nat (count_occ Z.eq_dec (counted im mask) v)) /\
    (forall v, In v (pixs im) -> In v (mkeys h)) /\
    (forall v, In v (mkeys h) -> inty t v) /\
    (fullRange = true -> (exists p, In p (pixs im) /\ p <> tmin t) -> forall v, inty t v -> In v (mkeys h)).
Proof. exact histogram_map_ok. Qed.
Print Assumptions C12_histogram_map.

(** With [fullRange], an image whose pixels are all 0 gives a histogram with the single key 0. *)
Theorem C12_fullRange_refuted : exists im h, wf_img im /\ typed_img UINT8 im /\ pixs im <> [] /\
  histogram_map UINT8 im None true = Some h /\ inty UINT8 1 /\ ~ In 1 (mkeys h).
Proof.
  exists (Img (Dims 2 2 1) [0; 0; 0; 0]), [(0, 4)].
  split; [repeat split; cbn; discriminate|]. split; [repeat apply Forall_cons; [split; cbn; discriminate ..|constructor]|].
  split; [discriminate|]. split; [reflexivity|]. split; [split; cbn; discriminate|]. intros [H|[]]; discriminate.
Qed.
Print Assumptions C12_fullRange_refuted.

(** The array version writes out of bounds for UINT32 images: the array has [cardinal() = 0] cells. *)
Theorem C12_uint32_refuted : forall im v r, wf_img im -> pixs im = v :: r -> histogram_array UINT32 im = None.
Proof.
  intros im v r Hwf E. unfold histogram_array. rewrite wf_count by exact Hwf. rewrite E. cbn [length].
  rewrite zseq_cons by apply Pos2Z.is_pos. cbn [fold_opt].
  replace (rd (v :: r) 0) with (Some v) by reflexivity. cbn [option_bind].
  rewrite (rd_out (repeat 0 _)); [reflexivity|]. cbn. intros [H1 H2].
  apply (Z.lt_irrefl 0). eapply Z.le_lt_trans; eassumption.
Qed.
Print Assumptions C12_uint32_refuted.

(** Binned histogram. *)
Theorem C12_histogramMap : forall t binSize im, wf_img im -> typed_img t im -> 1 <= binSize ->
  Z.of_nat (length (pixs im)) < 2 ^ 32 ->
  exists h, histogramMap t binSize im = Some h /\ StronglySorted Z.lt (mkeys h) /\
    (forall k, In k (mkeys h) <-> exists v, In v (pixs im) /\ k = Z.quot v binSize) /\
    forall k, mget 0 k h = Z.of_nat (length (filter (fun v => Z.quot v binSize =? k) (pixs im))).
Proof. exact histogramMap_ok. Qed.
Print Assumptions C12_histogramMap.

(** Its masked version counts pixels outside the mask. *)
Theorem C12_histogramMap_mask_refuted : exists im mask h,
  wf_img im /\ wf_img mask /\ sz im = sz mask /\ typed_img UINT8 im /\
  histogramMap_mask UINT8 1 im mask = Some h /\
  mget 0 5 h <> Z.of_nat (length (filter (fun v => Z.quot v 1 =? 5) (counted im (Some mask)))).
Proof.
  exists (Img (Dims 2 1 1) [5; 5]), (Img (Dims 2 1 1) [1; 0]), [(5, 2)].
  repeat (split; [try (repeat split; cbn; discriminate); try reflexivity|]).
  - repeat apply Forall_cons; [split; cbn; discriminate ..|constructor].
  - vm_compute. discriminate.
Qed.
Print Assumptions C12_histogramMap_mask_refuted.

Example C12_case : let im := Img (Dims 3 2 1) [7; 9; 7; 9; 9; 8] in let mask := Img (Dims 3 2 1) [1; 1; 0; 0; 2; 0] in
  wf_img im /\ wf_img mask /\ typed_img UINT8 im /\
  histogram_map UINT8 im (Some mask) false = Some [(7, 1); (8, 0); (9, 2)] /\
  histogram_map UINT8 im None false = Some [(7, 2); (8, 1); (9, 3)].
Proof.
  cbn zeta. split; [repeat split; cbn; discriminate|]. split; [repeat split; cbn; discriminate|].
  split; [repeat apply Forall_cons; [split; cbn; discriminate ..|constructor]|]. split; reflexivity.
Qed.

(** C15. *)
Theorem C15_area : forall im, wf_img im -> Z.of_nat (length (pixs im)) <= 2 ^ 53 ->
  area im = Some (Z.of_nat (length (filter (fun v => negb (v =? 0)) (pixs im)))).
Proof. exact area_ok. Qed.
Print Assumptions C15_area.

Theorem C15_volume : forall im, wf_img im -> Zsum (map Z.abs (pixs im)) <= 2 ^ 53 ->
  volume im = Some (Zsum (pixs im)).
Proof. exact volume_ok. Qed.
Print Assumptions C15_volume.

Theorem C15_minVal : forall t onlyNonZero im, wf_img im -> typed_img t im -> considered onlyNonZero im <> [] ->
  exists m, minVal t onlyNonZero im = Some m /\ In m (considered onlyNonZero im) /\
    forall v, In v (considered onlyNonZero im) -> m <= v.
Proof. exact minVal_ok. Qed.
Print Assumptions C15_minVal.

Theorem C15_maxVal : forall t onlyNonZero im, wf_img im -> typed_img t im -> considered onlyNonZero im <> [] ->
  exists m, maxVal t onlyNonZero im = Some m /\ In m (considered onlyNonZero im) /\
    forall v, In v (considered onlyNonZero im) -> v <= m.
Proof. exact maxVal_ok. Qed.
Print Assumptions C15_maxVal.

Theorem C15_rangeVal : forall t onlyNonZero im, wf_img im -> typed_img t im -> considered onlyNonZero im <> [] ->
  exists lo hi, rangeVal t onlyNonZero im = Some (lo, hi) /\
    In lo (considered onlyNonZero im) /\ In hi (considered onlyNonZero im) /\
    forall v, In v (considered onlyNonZero im) -> lo <= v <= hi.
Proof. exact rangeVal_ok. Qed.
Print Assumptions C15_rangeVal.

(** With a point: value and first position in raster order.  When 0 is excluded this needs a considered
    value below the maximum of the type (for minVal; above its minimum for maxVal). *)
Theorem C15_minVal_point_partial : forall t b im, wf_img im -> typed_img t im -> considered b im <> [] ->
  (b = true -> exists v, In v (considered b im) /\ v < tmax t) ->
  exists m x y z, minVal_pt t b im = Some (m, (x, y, z)) /\ pixel_is im x y z m /\ (b = true -> m <> 0) /\
    forall x' y' z' v', pixel_is im x' y' z' v' -> (b = true -> v' <> 0) ->
      m <= v' /\ (v' = m -> voxel_offset (dw (sz im)) (dh (sz im)) x y z <= voxel_offset (dw (sz im)) (dh (sz im)) x' y' z').
Proof. exact minVal_pt_ok. Qed.
Print Assumptions C15_minVal_point_partial.

Theorem C15_maxVal_point_partial : forall t b im, wf_img im -> typed_img t im -> considered b im <> [] ->
  (b = true -> exists v, In v (considered b im) /\ tmin t < v) ->
  exists m x y z, maxVal_pt t b im = Some (m, (x, y, z)) /\ pixel_is im x y z m /\ (b = true -> m <> 0) /\
    forall x' y' z' v', pixel_is im x' y' z' v' -> (b = true -> v' <> 0) ->
      v' <= m /\ (v' = m -> voxel_offset (dw (sz im)) (dh (sz im)) x y z <= voxel_offset (dw (sz im)) (dh (sz im)) x' y' z').
Proof. exact maxVal_pt_ok. Qed.
Print Assumptions C15_maxVal_point_partial.

(** When the only nonzero value is the maximum of the type, the position returned is not a position of it. *)
Theorem C15_point_refuted : exists im, wf_img im /\ typed_img UINT8 im /\ considered true im <> [] /\
  minVal_pt UINT8 true im = Some (255, (0, 0, 0)) /\ ~ pixel_is im 0 0 0 255.
Proof.
  exists (Img (Dims 2 1 1) [0; 255]). split; [repeat split; cbn; discriminate|].
  split; [repeat apply Forall_cons; [split; cbn; discriminate ..|constructor]|]. split; [discriminate|].
  split; [reflexivity|]. intros [_ H]. discriminate.
Qed.
Print Assumptions C15_point_refuted.

Example C15_case : let im := Img (Dims 2 2 2) [0; 3; 0; 9; 3; 0; 0; 9] in
  wf_img im /\ typed_img UINT8 im /\ area im = Some 4 /\ volume im = Some 24 /\ minVal UINT8 true im = Some 3 /\
  maxVal_pt UINT8 false im = Some (9, (1, 1, 0)) /\ minVal_pt UINT8 true im = Some (3, (1, 0, 0)) /\
  rangeVal UINT8 false im = Some (0, 9).
Proof.
  cbn zeta. split; [repeat split; cbn; discriminate|].
  split; [repeat apply Forall_cons; [split; cbn; discriminate ..|constructor]|]. repeat split; reflexivity.
Qed.

(** C16. *)
Theorem C16_valueList : forall b im, wf_img im ->
  exists l, valueList b im = Some l /\ StronglySorted Z.lt l /\ forall v, In v l <-> In v (considered b im).
Proof. exact valueList_ok. Qed.
Print Assumptions C16_valueList.

Theorem C16_nonZeroOffsets : forall im, wf_img im ->
  exists l, nonZeroOffsets im = Some l /\ StronglySorted Z.lt l /\
    forall k, In k l <-> exists v, rd (pixs im) k = Some v /\ v <> 0.
Proof. exact nonZeroOffsets_ok. Qed.
Print Assumptions C16_nonZeroOffsets.

(** The code counts the positive values only. *)
Theorem C16_modeVal_partial : forall t b im, wf_img im -> typed_img t im ->
  (exists v, In v (considered b im) /\ 0 < v) ->
  exists m, modeVal b im = Some (Some m) /\ In m (considered b im) /\ 0 < m /\
    forall v, In v (considered b im) -> 0 < v ->
      (count_occ Z.eq_dec (considered b im) v <= count_occ Z.eq_dec (considered b im) m)%nat.
Proof. exact modeVal_ok. Qed.
Print Assumptions C16_modeVal_partial.

(** On an image without nonzero pixel, with onlyNonZero, the value returned was never initialised; on
    signed images a negative majority is ignored. *)
Theorem C16_modeVal_refuted :
  (forall im, wf_img im -> considered true im = [] -> modeVal true im = Some None) /\
  (exists im, wf_img im /\ typed_img INT8 im /\ modeVal true im = Some (Some 1) /\
     (count_occ Z.eq_dec (pixs im) 1%Z < count_occ Z.eq_dec (pixs im) (-3)%Z)%nat).
Proof.
  split; [exact modeVal_none|]. exists (Img (Dims 3 1 1) [-3; 1; -3]).
  split; [repeat split; cbn; discriminate|].
  split; [repeat apply Forall_cons; [split; cbn; discriminate ..|constructor]|]. split; [reflexivity|]. vm_compute. constructor.
Qed.
Print Assumptions C16_modeVal_refuted.

Theorem C16_medianVal_partial : forall t b im, wf_img im -> typed_img t im -> (forall v, In v (pixs im) -> v < 2 ^ 31) ->
  exists m, medianVal t b im = Some m /\
    ((forall v, In v (pixs im) -> v <= 0) -> m = 0) /\
    ((exists v, In v (pixs im) /\ 0 < v) ->
       0 < m /\ In m (pixs im) /\ 2 * pos_le m (pixs im) > pos_all (pixs im) /\
       forall v, v < m -> 2 * pos_le v (pixs im) <= pos_all (pixs im)).
Proof. exact medianVal_ok. Qed.
Print Assumptions C16_medianVal_partial.

(** UINT32 values from 2^31 on are sorted before the others. *)
Theorem C16_medianVal_refuted : exists im m, wf_img im /\ typed_img UINT32 im /\ medianVal UINT32 true im = Some m /\
  m = 2 ^ 31 + 1 /\ 2 * pos_le (2 ^ 31) (pixs im) > pos_all (pixs im) /\ 2 ^ 31 < m.
Proof.
  exists (Img (Dims 3 1 1) [1; 2 ^ 31; 2 ^ 31 + 1]), (2 ^ 31 + 1).
  split; [repeat split; cbn; discriminate|].
  split; [repeat apply Forall_cons; [split; cbn; discriminate ..|constructor]|]. repeat split; reflexivity.
Qed.
Print Assumptions C16_medianVal_refuted.

Theorem C16_boundBox : forall im, wf_img im ->
  dw (sz im) < 2 ^ 32 -> dh (sz im) < 2 ^ 32 -> dd (sz im) < 2 ^ 32 ->
  (exists x y z, nonzero_at im x y z) ->
  exists x0 y0 z0 x1 y1 z1,
    measBoundBox im = Some (if dd (sz im) >? 1 then [x0; y0; z0; x1; y1; z1] else [x0; y0; x1; y1]) /\
    (forall x y z, nonzero_at im x y z -> x0 <= x <= x1 /\ y0 <= y <= y1 /\ (1 < dd (sz im) -> z0 <= z <= z1)) /\
    (exists y z, nonzero_at im x0 y z) /\ (exists y z, nonzero_at im x1 y z) /\
    (exists x z, nonzero_at im x y0 z) /\ (exists x z, nonzero_at im x y1 z) /\
    (1 < dd (sz im) -> (exists x y, nonzero_at im x y z0) /\ (exists x y, nonzero_at im x y z1)).
Proof. exact measBoundBox_ok. Qed.
Print Assumptions C16_boundBox.

Example C16_case : let im := Img (Dims 4 3 2) [0;0;0;0; 0;5;5;0; 0;0;0;0;  0;0;0;0; 0;0;7;0; 0;9;0;0] in
  wf_img im /\ typed_img UINT8 im /\ nonzero_at im 1 1 0 /\
  measBoundBox im = Some [1; 1; 0; 2; 2; 1] /\ valueList true im = Some [5; 7; 9] /\
  modeVal true im = Some (Some 5) /\ medianVal UINT8 true im = Some 7 /\
  nonZeroOffsets im = Some [5; 6; 18; 21].
Proof.
  cbn zeta. split; [repeat split; cbn; discriminate|].
  split; [repeat apply Forall_cons; [split; cbn; discriminate ..|constructor]|].
  split; [exists 5; split; [discriminate|]; split; [repeat split; cbn; discriminate || reflexivity|reflexivity]|].
  repeat split; vm_compute; reflexivity.
Qed.

(** C17. *)
Theorem C17_computeBlobs : forall onlyNonZero im, wf_img im -> 0 < dw (sz im) ->
  exists b, computeBlobs onlyNonZero im = Some b /\ StronglySorted Z.lt (mkeys b) /\
    (forall v, In v (mkeys b) <-> label_kept onlyNonZero v = true /\ In v (pixs im)) /\
    (forall v l, mfind v b = Some l ->
       run_pixels l = filter (fun k => znth 0 (pixs im) k =? v) (zseq (Z.of_nat (length (pixs im)))) /\
       l <> [] /\ Forall (run_in_line (dw (sz im))) l).
Proof. exact computeBlobs_ok. Qed.
Print Assumptions C17_computeBlobs.

(** Drawing the blobs of a label image, each with its own label (default arguments: blobsValue 0, fill
    first with 0), into an image of the same size.  The label of the last pixel is never drawn: its
    pixels are left at 0, and the code returned is then RES_ERR. *)
Theorem C17_drawBlobs_partial : forall t im out, wf_img im -> typed_img t im -> wf_img out -> sz im = sz out ->
  pixs im <> [] ->
  let lastv := znth 0 (pixs im) (Z.of_nat (length (pixs im)) - 1) in
  exists b, computeBlobs true im = Some b /\
    drawBlobs t b 0 true 0 out =
      Some (if lastv =? 0 then 1 else -100, Img (sz out) (map (fun v => if v =? lastv then 0 else v) (pixs im))).
Proof.
  intros t im out Hi HT Ho Es HN lastv.
  assert (N0 : 0 < Z.of_nat (length (pixs im))) by (destruct (pixs im); [congruence|apply Pos2Z.is_pos]).
  assert (Hw : 0 < dw (sz im)).
  { destruct Hi as [(W1 & W2 & W3) HL]. apply Z.le_neq. split; [exact W1|]. intros E. rewrite <- E, !Z.mul_0_l in HL.
    rewrite HL in N0. apply (Z.lt_irrefl 0). exact N0. }
  assert (L : length (pixs out) = length (pixs im)).
  { apply Nat2Z.inj. destruct Hi as [_ Hi], Ho as [_ Ho]. rewrite Hi, Ho, Es. reflexivity. }
  destruct (computeBlobs_ok true im Hi Hw) as (b & Eb & _). exists b. split; [exact Eb|].
  unfold drawBlobs. cbn [Z.eqb negb].
  destruct (draw_all true im (wrap t) b (repeat 0 (length (pixs out))) (Z.of_nat (length (pixs im))) Hi Hw Eb eq_refl N0)
    as (px & E1 & E2 & E3); [rewrite repeat_length, L; reflexivity|].
  rewrite E1. cbn [option_map fst snd]. fold lastv in E3 |- *. f_equal. f_equal.
  - unfold label_kept. cbn [negb]. rewrite orb_false_r, negb_involutive. reflexivity.
  - f_equal. unfold typed_img in HT. rewrite Forall_forall in HT. apply list_ext_rd.
    + rewrite E2, repeat_length, map_length. exact L.
    + intros i Hi'. rewrite E2, repeat_length, L in Hi'.
      rewrite (E3 i _ Hi' eq_refl), rd_map, (rd_znth 0 _ _ Hi'). cbn [option_map].
      assert (Hv : inty t (znth 0 (pixs im) i)) by (apply HT; eapply rd_In; apply rd_znth; exact Hi').
      set (v := znth 0 (pixs im) i) in *. unfold label_kept. cbn [negb]. rewrite orb_false_r.
      destruct (Z.eqb_spec v lastv) as [E|N]; cbn [negb].
      * rewrite andb_false_r. apply rd_repeat. rewrite L. exact Hi'.
      * rewrite andb_true_r. destruct (Z.eqb_spec v 0) as [E0|N0']; cbn [negb].
        -- rewrite E0. apply rd_repeat. rewrite L. exact Hi'.
        -- rewrite wrap_id by exact Hv. reflexivity.
Qed.
Print Assumptions C17_drawBlobs_partial.

(** The same with a lookup table: pixels whose label is the label of the last pixel are skipped. *)
Theorem C17_drawBlobs_lut_partial : forall im out lut fillFirst def, wf_img im -> wf_img out -> sz im = sz out ->
  pixs im <> [] ->
  let lastv := znth 0 (pixs im) (Z.of_nat (length (pixs im)) - 1) in
  exists b code out', computeBlobs true im = Some b /\ drawBlobs_lut b lut fillFirst def out = Some (code, out') /\
    sz out' = sz out /\ code = (if lastv =? 0 then 1 else -100) /\
    forall k v, rd (pixs im) k = Some v ->
      (v <> 0 /\ v <> lastv -> rd (pixs out') k = Some (mget def v lut)) /\
      (v = 0 \/ v = lastv -> rd (pixs out') k = if fillFirst then Some def else rd (pixs out) k).
Proof.
  intros im out lut ff def Hi Ho Es HN lastv.
  assert (N0 : 0 < Z.of_nat (length (pixs im))) by (destruct (pixs im); [congruence|apply Pos2Z.is_pos]).
  assert (Hw : 0 < dw (sz im)).
  { destruct Hi as [(W1 & W2 & W3) HL]. apply Z.le_neq. split; [exact W1|]. intros E. rewrite <- E, !Z.mul_0_l in HL.
    rewrite HL in N0. apply (Z.lt_irrefl 0). exact N0. }
  assert (L : length (pixs out) = length (pixs im)).
  { apply Nat2Z.inj. destruct Hi as [_ Hi], Ho as [_ Ho]. rewrite Hi, Ho, Es. reflexivity. }
  destruct (computeBlobs_ok true im Hi Hw) as (b & Eb & _).
  set (px0 := if ff then repeat def (length (pixs out)) else pixs out).
  assert (L0 : length px0 = length (pixs im)) by (unfold px0; destruct ff; [rewrite repeat_length|]; exact L).
  destruct (draw_all true im (fun v => mget def v lut) b px0 (Z.of_nat (length (pixs im))) Hi Hw Eb eq_refl N0)
    as (px & E1 & E2 & E3); [rewrite L0; reflexivity|].
  exists b. eexists. eexists. split; [exact Eb|]. split.
  { unfold drawBlobs_lut. fold px0. rewrite E1. reflexivity. }
  cbn [fst snd sz pixs]. split; [reflexivity|]. split.
  { fold lastv. unfold label_kept. cbn [negb]. rewrite orb_false_r, negb_involutive. reflexivity. }
  intros k v Hk. pose proof (rd_Some_range _ _ _ Hk) as Hr. specialize (E3 k v Hr). rewrite (znth_rd 0 _ _ _ Hk) in E3.
  specialize (E3 eq_refl). fold lastv in E3. unfold label_kept in E3. cbn [negb] in E3. rewrite orb_false_r in E3. split.
  - intros [V1 V2]. rewrite E3. apply Z.eqb_neq in V1, V2. rewrite V1, V2. reflexivity.
  - intros V. rewrite E3. replace (negb (v =? 0) && negb (v =? lastv)) with false.
    + unfold px0. destruct ff; [|reflexivity]. apply rd_repeat. rewrite L. exact Hr.
    + destruct V as [V|V]; apply Z.eqb_eq in V; rewrite V; cbn; [reflexivity|symmetry; apply andb_false_r].
Qed.
Print Assumptions C17_drawBlobs_lut_partial.

Theorem C17_drawBlobs_refuted : exists im b, wf_img im /\ typed_img UINT8 im /\ computeBlobs true im = Some b /\
  drawBlobs UINT8 b 0 true 0 im = Some (-100, Img (sz im) [1; 1; 0; 0]) /\ pixs im = [1; 1; 2; 2].
Proof.
  exists (Img (Dims 4 1 1) [1; 1; 2; 2]). eexists. split; [repeat split; cbn; discriminate|].
  split; [repeat apply Forall_cons; [split; cbn; discriminate ..|constructor]|]. repeat split; reflexivity.
Qed.
Print Assumptions C17_drawBlobs_refuted.

Example C17_case : let im := Img (Dims 4 2 1) [1; 1; 2; 0;  1; 3; 3; 0] in
  wf_img im /\ typed_img UINT8 im /\ pixs im <> [] /\
  computeBlobs true im = Some [(1, [(0, 2); (4, 1)]); (2, [(2, 1)]); (3, [(5, 2)])].
Proof.
  cbn zeta. split; [repeat split; cbn; discriminate|].
  split; [repeat apply Forall_cons; [split; cbn; discriminate ..|constructor]|]. split; [discriminate|]. reflexivity.
Qed.

(** C18. *)
Theorem C18_applyLookup : forall t2 lut def im out, wf_img im -> wf_img out -> sz im = sz out -> lut <> [] ->
  ((forall k v, In (k, v) lut -> v <= tmax t2) ->
     applyLookup_gen t2 lut def im out =
     Some (1, Img (sz out) (map (fun v => match mfind v lut with Some x => wrap t2 x | None => def end) (pixs im)))) /\
  ((exists k v, In (k, v) lut /\ tmax t2 < v) -> applyLookup_gen t2 lut def im out = Some (-100, out)).
Proof. exact applyLookup_gen_ok. Qed.
Print Assumptions C18_applyLookup.

Theorem C18_applyLookup_small_partial : forall t1 lut def im out, t1 = UINT8 \/ t1 = UINT16 ->
  wf_img im -> wf_img out -> sz im = sz out -> typed_img t1 im -> StronglySorted Z.lt (mkeys lut) -> lut <> [] ->
  (forall k, In k (mkeys lut) -> inty t1 k) ->
  (forall v, In v (pixs im) -> v <> tmax t1 \/ In v (mkeys lut)) ->
  applyLookup_small t1 lut def im out = Some (1, Img (sz out) (map (fun v => mget def v lut) (pixs im))).
Proof. exact applyLookup_small_ok. Qed.
Print Assumptions C18_applyLookup_small_partial.

(** In the UINT8/UINT16 version the default is never stored for the maximum of the type: a pixel with
    that value which is not a key reads an uninitialised cell. *)
Theorem C18_applyLookup_small_refuted : exists lut im, wf_img im /\ typed_img UINT8 im /\ lut <> [] /\
  applyLookup_small UINT8 lut 0 im im = None.
Proof.
  exists [(1, 2)], (Img (Dims 1 1 1) [255]). split; [repeat split; cbn; discriminate|].
  split; [apply Forall_cons; [split; cbn; discriminate|constructor]|]. split; [discriminate|]. vm_compute. reflexivity.
Qed.
Print Assumptions C18_applyLookup_small_refuted.

Example C18_case : let im := Img (Dims 2 2 1) [1; 2; 3; 1] in
  wf_img im /\ typed_img UINT8 im /\
  applyLookup_small UINT8 [(1, 10); (3, 30)] 99 im im = Some (1, Img (Dims 2 2 1) [10; 99; 30; 10]).
Proof.
  cbn zeta. split; [repeat split; cbn; discriminate|].
  split; [repeat apply Forall_cons; [split; cbn; discriminate ..|constructor]|]. vm_compute. reflexivity.
Qed.

(** C45.  Measures of the blobs of a label image on another image of the same size. *)
Theorem C45_blobs_area : forall onlyNonZero labels im, wf_img labels -> 0 < dw (sz labels) ->
  length (pixs labels) = length (pixs im) -> Z.of_nat (length (pixs im)) <= 2 ^ 53 ->
  exists b res, computeBlobs onlyNonZero labels = Some b /\ process_blobs blob_area b im = Some res /\
    StronglySorted Z.lt (mkeys res) /\
    (forall v, In v (mkeys res) <-> label_kept onlyNonZero v = true /\ In v (pixs labels)) /\
    (forall v, label_kept onlyNonZero v = true -> In v (pixs labels) ->
       mfind v res = Some (Z.of_nat (count_occ Z.eq_dec (pixs labels) v))).
Proof. exact blobs_area_ok. Qed.
Print Assumptions C45_blobs_area.

Theorem C45_blobs_volume : forall onlyNonZero labels im, wf_img labels -> 0 < dw (sz labels) ->
  length (pixs labels) = length (pixs im) ->
  (forall v, In v (pixs labels) -> Zsum (map Z.abs (zone im labels v)) <= 2 ^ 53) ->
  exists b res, computeBlobs onlyNonZero labels = Some b /\ process_blobs blob_volume b im = Some res /\
    StronglySorted Z.lt (mkeys res) /\
    (forall v, In v (mkeys res) <-> label_kept onlyNonZero v = true /\ In v (pixs labels)) /\
    (forall v, label_kept onlyNonZero v = true -> In v (pixs labels) -> mfind v res = Some (Zsum (zone im labels v))).
Proof. exact blobs_volume_ok. Qed.
Print Assumptions C45_blobs_volume.

Theorem C45_blobs_range : forall t onlyNonZero labels im, wf_img labels -> 0 < dw (sz labels) ->
  length (pixs labels) = length (pixs im) -> typed_img t im ->
  exists b res, computeBlobs onlyNonZero labels = Some b /\ process_blobs (blob_range t) b im = Some res /\
    StronglySorted Z.lt (mkeys res) /\
    (forall v, In v (mkeys res) <-> label_kept onlyNonZero v = true /\ In v (pixs labels)) /\
    (forall v, label_kept onlyNonZero v = true -> In v (pixs labels) ->
       exists lo hi, mfind v res = Some (lo, hi) /\ In lo (zone im labels v) /\ In hi (zone im labels v) /\
         forall u, In u (zone im labels v) -> lo <= u <= hi).
Proof. exact blobs_range_ok. Qed.
Print Assumptions C45_blobs_range.

Example C45_case : let labels := Img (Dims 3 2 1) [1; 1; 0;  2; 1; 2] in let im := Img (Dims 3 2 1) [5; 6; 7;  8; 9; 4] in
  wf_img labels /\ typed_img UINT8 im /\
  exists b, computeBlobs true labels = Some b /\ process_blobs blob_area b im = Some [(1, 3); (2, 2)] /\
    process_blobs blob_volume b im = Some [(1, 20); (2, 12)] /\
    process_blobs (blob_range UINT8) b im = Some [(1, (5, 9)); (2, (4, 8))] /\
    zone im labels 2 = [8; 4].
Proof.
  cbn zeta. split; [repeat split; cbn; discriminate|].
  split; [repeat apply Forall_cons; [split; cbn; discriminate ..|constructor]|].
  eexists. repeat split; reflexivity.
Qed.
