(** C01, C02, C03: offsets, coordinates, line tables, ImageBox. *)
From Verif Require Import Spec.PixelSpec Proofs.GeometryFacts Proofs.GeometryProofs.

(** C01.  [small s]: dimensions are non-negative and the image is addressable. *)
Theorem C01_offset_of_coords : forall s x y z, small s ->
  - 2 ^ 63 <= x < 2 ^ 63 -> - 2 ^ 63 <= y < 2 ^ 63 -> - 2 ^ 63 <= z < 2 ^ 63 ->
  (inside s x y z ->
     getOffsetFromCoords s x y z = voxel_offset (dw s) (dh s) x y z /\
     0 <= getOffsetFromCoords s x y z < dw s * dh s * dd s /\
     getCoordsFromOffset s (getOffsetFromCoords s x y z) = Some (x, y, z)) /\
  (~ inside s x y z -> getOffsetFromCoords s x y z = -1).
Proof.
  intros s x y z Hs Hx Hy Hz. split.
  - intros Hi. rewrite (offset_inside s x y z Hs Hi).
    exact (conj eq_refl (conj (inside_range s x y z Hi) (coords_voxel s x y z Hs Hi))).
  - exact (offset_outside s x y z Hs Hx Hy Hz).
Qed.
Print Assumptions C01_offset_of_coords.

Theorem C01_coords_of_offset : forall s off, small s -> 0 <= off < dw s * dh s * dd s ->
  exists x y z, getCoordsFromOffset s off = Some (x, y, z) /\ inside s x y z /\
    getOffsetFromCoords s x y z = off.
Proof. exact coords_offset_roundtrip. Qed.
Print Assumptions C01_coords_of_offset.

Theorem C01_line_tables : forall s, small s ->
  Z.of_nat (length (restruct_lines s)) = dd s * dh s /\
  (forall x y z, inside s x y z -> slice_access s x y z = Some (getOffsetFromCoords s x y z)) /\
  (forall off, 0 <= off < dw s * dh s * dd s ->
     exists! i, exists start, rd (restruct_lines s) i = Some start /\ start <= off < start + dw s).
Proof.
  intros s Hs. split; [|split].
  - destruct Hs as (H1 & H2 & H3 & H4). apply restruct_lines_length; [apply H2|apply H3].
  - intros x y z Hi. rewrite (offset_inside s x y z Hs Hi). exact (slice_access_ok s x y z Hs Hi).
  - intros off. exact (one_line s off Hs).
Qed.
Print Assumptions C01_line_tables.

Theorem C01_getPixel : forall s px x y z, small s -> Z.of_nat (length px) = dw s * dh s * dd s ->
  - 2 ^ 63 <= x < 2 ^ 63 -> - 2 ^ 63 <= y < 2 ^ 63 -> - 2 ^ 63 <= z < 2 ^ 63 ->
  exists v, getPixel_xyz s px x y z = Some v /\
    (inside s x y z -> rd px (voxel_offset (dw s) (dh s) x y z) = Some v) /\ (~ inside s x y z -> v = 0).
Proof. exact getPixel_ok. Qed.
Print Assumptions C01_getPixel.

Theorem C01_setPixel : forall s px x y z v, small s -> Z.of_nat (length px) = dw s * dh s * dd s ->
  inside s x y z ->
  exists px', setPixel_xyz s px x y z v = Some (1, px') /\ length px' = length px /\
    rd px' (voxel_offset (dw s) (dh s) x y z) = Some v /\
    forall k, k <> voxel_offset (dw s) (dh s) x y z -> rd px' k = rd px k.
Proof. exact setPixel_getPixel. Qed.
Print Assumptions C01_setPixel.

Example C01_case : let s := Dims 5 4 3 in
  small s /\ inside s 4 2 1 /\ getOffsetFromCoords s 4 2 1 = 34 /\ getCoordsFromOffset s 34 = Some (4, 2, 1)
  /\ getOffsetFromCoords s 5 0 0 = -1 /\ getOffsetFromCoords s (-1) 0 0 = -1.
Proof. vm_compute. repeat split; congruence. Qed.

(** C02.  The property is false: the offset one past the end is accepted, by both overloads. *)
Theorem C02_isOffsetInImage_refuted : exists s off, small s /\
  ~ (0 <= off < dw s * dh s * dd s) /\ isOffsetInImage s off = true /\ isOffsetInImage_u s off = true.
Proof. exists (Dims 2 2 1), 4. vm_compute. repeat split; try congruence. intros [_ H]. discriminate. Qed.
Print Assumptions C02_isOffsetInImage_refuted.

(** What holds: exactly the offsets 0 .. pixelCount (inclusive) are accepted. *)
Theorem C02_isOffsetInImage_partial : forall s off, small s -> - 2 ^ 63 <= off < 2 ^ 63 ->
  (isOffsetInImage s off = true <-> 0 <= off <= dw s * dh s * dd s) /\
  (isOffsetInImage_u s off = true <-> 0 <= off <= dw s * dh s * dd s).
Proof. exact isOffsetInImage_char. Qed.
Print Assumptions C02_isOffsetInImage_partial.

(** Coordinates tests are exact (both overloads). *)
Theorem C02_isCoordsInImage : forall s x y z, small s ->
  - 2 ^ 63 <= x < 2 ^ 63 -> - 2 ^ 63 <= y < 2 ^ 63 -> - 2 ^ 63 <= z < 2 ^ 63 ->
  (isCoordsInImage s x y z = true <-> inside s x y z) /\
  (isCoordsInImage_u s x y z = true <-> inside s x y z).
Proof. exact isCoordsInImage_char. Qed.
Print Assumptions C02_isCoordsInImage.

Example C02_case : small (Dims 3 2 2) /\ isOffsetInImage (Dims 3 2 2) 11 = true /\ isOffsetInImage (Dims 3 2 2) 13 = false.
Proof. vm_compute. repeat split; congruence. Qed.

(** C03.  [consistent b]: the stored point and the stored offset denote the same voxel. *)
Definition consistent (b : box) : Prop := bref b = voxel_offset (bw b) (bh b) (bx b) (by_ b) (bz b).

Theorem C03_box_partial : forall s,
  consistent (box_new s) /\
  (forall b x y z, consistent (box_setRef_xyz b x y z)) /\
  (forall b dx dy dz, consistent (box_shift_pt b dx dy dz)) /\
  (forall off, 0 < dw s -> 0 < dh s -> 0 <= off < dw s * dh s * dd s ->
     let b := box_setRef_off (box_new s) off in
     bref b = off /\ consistent b /\ inside s (bx b) (by_ b) (bz b)) /\
  (forall b x y z, box_getOffset b x y z = voxel_offset (bw b) (bh b) x y z) /\
  (forall off, 0 < dw s -> 0 < dh s -> 0 <= off < dw s * dh s * dd s ->
     forall x y z, box_getCoords (box_new s) off = (x, y, z) ->
     inside s x y z /\ voxel_offset (dw s) (dh s) x y z = off).
Proof. exact box_props. Qed.
Print Assumptions C03_box_partial.

(** The overload taking a point and the overload of shift taking three numbers store a wrong offset;
    exactly in these cases they are right. *)
Theorem C03_setReference_point_partial : forall b x y z,
  consistent (box_setRef_pt b x y z) <-> y = 0 \/ bw b = bh b.
Proof. exact box_setRef_pt_char. Qed.
Print Assumptions C03_setReference_point_partial.

Theorem C03_shift_numbers_partial : forall b dx dy dz,
  consistent (box_shift_xyz b dx dy dz) <-> by_ b + dy = 0 \/ bw b = 0 \/ bw b = 1.
Proof. exact box_shift_xyz_char. Qed.
Print Assumptions C03_shift_numbers_partial.

Theorem C03_box_refuted : exists s x y z, inside s x y z /\
  ~ consistent (box_setRef_pt (box_new s) x y z) /\ ~ consistent (box_shift_xyz (box_new s) x y z).
Proof. exists (Dims 4 3 2), 1, 2, 1. vm_compute. repeat split; try congruence; discriminate. Qed.
Print Assumptions C03_box_refuted.

Example C03_case : let b := box_setRef_off (box_new (Dims 4 3 2)) 21 in
  (bx b, by_ b, bz b) = (1, 2, 1) /\ bref (box_shift_pt b 1 0 0) = 22.
Proof. vm_compute. repeat split. Qed.
