(** C13, C14: copy of a window, crop, border, flips, rotation, translation, transposition. *)
From Verif Require Import Spec.ImageSpec Spec.TransformSpec Proofs.TransformProofs5.
From Coq Require Import Ascii String List.
Import ListNotations.
Open Scope list_scope. Open Scope Z_scope.

(** C13.  [conv] is the conversion to the output pixel type. *)
Theorem C13_copy : forall conv sched imIn sx sy sz_ nx ny nz imOut ox oy oz,
  legal_sched sched -> wf_img imIn -> wf_img imOut -> small (sz imIn) -> small (sz imOut) ->
  inside (sz imIn) sx sy sz_ -> inside (sz imOut) ox oy oz -> 0 <= nx -> 0 <= ny -> 0 <= nz ->
  exists out, copy_range conv sched imIn sx sy sz_ nx ny nz imOut ox oy oz = Some (1, out) /\
    wf_img out /\ sz out = sz imOut /\
    (forall i j k u, 0 <= i < nx -> 0 <= j < ny -> 0 <= k < nz ->
       pixel_is imIn (sx + i) (sy + j) (sz_ + k) u -> inside (sz imOut) (ox + i) (oy + j) (oz + k) ->
       pixel_is out (ox + i) (oy + j) (oz + k) (conv u)) /\
    (forall x y z v,
       ~ (exists i j k, 0 <= i < nx /\ 0 <= j < ny /\ 0 <= k < nz /\ inside (sz imIn) (sx + i) (sy + j) (sz_ + k) /\
            x = ox + i /\ y = oy + j /\ z = oz + k) ->
       (pixel_is out x y z v <-> pixel_is imOut x y z v)).
Proof. exact copy_range_ok. Qed.
Print Assumptions C13_copy.

Theorem C13_copy_reject : forall conv sched imIn sx sy sz_ nx ny nz imOut ox oy oz,
  0 <= sx -> 0 <= sy -> 0 <= sz_ -> 0 <= ox -> 0 <= oy -> 0 <= oz ->
  ~ (inside (sz imIn) sx sy sz_ /\ inside (sz imOut) ox oy oz) ->
  copy_range conv sched imIn sx sy sz_ nx ny nz imOut ox oy oz = Some (-100, imOut).
Proof. exact copy_range_reject. Qed.
Print Assumptions C13_copy_reject.

Theorem C13_crop : forall junk sched imIn sx sy sz_ nx ny nz imOut,
  legal_sched sched -> wf_img imIn -> wf_img imOut -> small (sz imIn) ->
  inside (sz imIn) sx sy sz_ -> 0 < nx -> 0 < ny -> 0 < nz ->
  exists out, crop junk sched imIn sx sy sz_ nx ny nz imOut = Some (1, out) /\ wf_img out /\
    sz out = Dims (Z.min nx (dw (sz imIn) - sx)) (Z.min ny (dh (sz imIn) - sy)) (Z.min nz (dd (sz imIn) - sz_)) /\
    (forall x y z v, inside (sz out) x y z -> (pixel_is out x y z v <-> pixel_is imIn (sx + x) (sy + y) (sz_ + z) v)).
Proof. exact crop_ok. Qed.
Print Assumptions C13_crop.

Theorem C13_crop_reject : forall junk sched imIn sx sy sz_ nx ny nz imOut,
  0 <= sx -> 0 <= sy -> 0 <= sz_ -> 0 <= nx -> 0 <= ny -> 0 <= nz ->
  ~ (inside (sz imIn) sx sy sz_ /\ 0 < nx /\ 0 < ny /\ 0 < nz) -> small (sz imIn) ->
  exists out, crop junk sched imIn sx sy sz_ nx ny nz imOut = Some (-100, out).
Proof. exact crop_reject. Qed.
Print Assumptions C13_crop_reject.

(** The border in z is only added to images of more than one slice. *)
Theorem C13_addBorder : forall junk sched imIn b imOut bv,
  legal_sched sched -> wf_img imIn -> wf_img imOut -> small (sz imIn) -> nonempty imIn -> 0 <= b ->
  let bz := if 1 <? dd (sz imIn) then b else 0 in
  let so := Dims (dw (sz imIn) + 2 * b) (dh (sz imIn) + 2 * b) (dd (sz imIn) + 2 * bz) in
  small so ->
  exists out, addBorder junk sched imIn b imOut bv = Some (1, out) /\ wf_img out /\ sz out = so /\
    (forall x y z v, inside (sz imIn) x y z -> (pixel_is out (x + b) (y + b) (z + bz) v <-> pixel_is imIn x y z v)) /\
    (forall x y z v, inside so x y z -> ~ inside (sz imIn) (x - b) (y - b) (z - bz) -> (pixel_is out x y z v <-> v = bv)).
Proof. exact addBorder_ok. Qed.
Print Assumptions C13_addBorder.

Theorem C13_border_then_crop : forall junk junk' sched sched' imIn b imOut imOut' bv out,
  legal_sched sched -> legal_sched sched' -> wf_img imIn -> wf_img imOut -> wf_img imOut' ->
  small (sz imIn) -> nonempty imIn -> 0 <= b ->
  let bz := if 1 <? dd (sz imIn) then b else 0 in
  small (Dims (dw (sz imIn) + 2 * b) (dh (sz imIn) + 2 * b) (dd (sz imIn) + 2 * bz)) ->
  addBorder junk sched imIn b imOut bv = Some (1, out) ->
  crop junk' sched' out b b bz (dw (sz imIn)) (dh (sz imIn)) (dd (sz imIn)) imOut' = Some (1, imIn).
Proof. exact border_crop. Qed.
Print Assumptions C13_border_then_crop.

Definition ex13 := Img (Dims 3 2 1) [1; 2; 3; 4; 5; 6].
Definition ex13o := Img (Dims 2 2 1) [9; 9; 9; 9].
Example C13_case : wf_img ex13 /\ small (sz ex13) /\ nonempty ex13 /\ legal_sched (@rev (Z * Z * Z)) /\
  copy_range (fun v => v) (@rev _) ex13 1 0 0 7 7 7 ex13o 0 1 0 = Some (1, Img (Dims 2 2 1) [9; 9; 2; 3]) /\
  crop (fun _ => 77) (@rev _) ex13 1 1 0 9 9 9 ex13o = Some (1, Img (Dims 2 1 1) [5; 6]) /\
  addBorder (fun _ => 77) (@rev _) ex13o 1 ex13 0 = Some (1, Img (Dims 4 4 1) [0;0;0;0; 0;9;9;0; 0;9;9;0; 0;0;0;0]).
Proof.
  split; [repeat split; cbn; discriminate|]. split; [repeat split; cbn; discriminate|]. split; [repeat split|].
  split; [intros l i; symmetry; apply in_rev|]. vm_compute. repeat split.
Qed.

(** C14: flips. *)
Theorem C14_flip : forall sched vf imIn imOut, legal_sched sched -> wf_img imIn -> wf_img imOut -> sz imIn = sz imOut ->
  exists out, flipIt sched vf imIn imOut = Some (1, out) /\ wf_img out /\ sz out = sz imIn /\
    forall x y z v, inside (sz imIn) x y z ->
      (pixel_is out x y z v <->
       pixel_is imIn (if vf then x else dw (sz imIn) - 1 - x) (if vf then dh (sz imIn) - 1 - y else y) z v).
Proof. exact flip_ok. Qed.
Print Assumptions C14_flip.

Theorem C14_flip_bad_size : forall sched vf imIn imOut, sz imIn <> sz imOut -> flipIt sched vf imIn imOut = Some (-98, imOut).
Proof. exact flip_bad. Qed.
Print Assumptions C14_flip_bad_size.

(** In place (imOut = imIn) or not. *)
Theorem C14_flip_involution : forall sched sched' vf imIn imOut imOut' out, legal_sched sched -> legal_sched sched' ->
  wf_img imIn -> wf_img imOut -> wf_img imOut' ->
  sz imIn = sz imOut -> sz imOut' = sz imIn -> flipIt sched vf imIn imOut = Some (1, out) ->
  flipIt sched' vf out imOut' = Some (1, imIn).
Proof. exact flip_twice. Qed.
Print Assumptions C14_flip_involution.

(** Rotation: right when the count is not negative and, for one quarter turn, the slices are square ... *)
Theorem C14_rotate_partial : forall junk sched imIn count imOut,
  legal_sched sched -> wf_img imIn -> wf_img imOut -> 0 <= count ->
  (count mod 4 = 1 -> dw (sz imIn) = dh (sz imIn)) ->
  exists out, rotateX90 junk sched imIn count imOut = Some (1, out) /\ turns (Z.to_nat (count mod 4)) imIn out.
Proof. exact rotate_ok. Qed.
Print Assumptions C14_rotate_partial.

Theorem C14_rotate_compose_partial : forall junk junk' sched sched' a b im imOut imOut' o,
  legal_sched sched -> legal_sched sched' ->
  wf_img im -> wf_img imOut -> wf_img imOut' -> 0 <= a -> 0 <= b -> dw (sz im) = dh (sz im) ->
  rotateX90 junk sched im a imOut = Some (1, o) ->
  rotateX90 junk' sched' o b imOut' = rotateX90 junk' sched' im (a + b) imOut'.
Proof. exact rotate_compose. Qed.
Print Assumptions C14_rotate_compose_partial.

Theorem C14_four_turns : forall im o, wf_img im -> turns 4 im o -> o = im.
Proof. exact turns4. Qed.
Print Assumptions C14_four_turns.

(** ... but one quarter turn of any non-square image writes outside the output, *)
Theorem C14_rotate90_refuted : forall junk sched imIn count imOut,
  legal_sched sched -> wf_img imIn -> wf_img imOut -> nonempty imIn ->
  0 <= count -> count mod 4 = 1 -> dw (sz imIn) <> dh (sz imIn) -> rotateX90 junk sched imIn count imOut = None.
Proof. exact rotate90_oob. Qed.
Print Assumptions C14_rotate90_refuted.

(** ... and a negative count that is not a multiple of four leaves the output pixels as they were, or
    uninitialised after a change of size. *)
Theorem C14_rotate_negative_refuted : forall junk sched imIn count imOut, count < 0 -> Z.rem count 4 <> 0 ->
  rotateX90 junk sched imIn count imOut = Some (1, setSize junk imOut (Dims (width imIn) (height imIn) (depth imIn))).
Proof. exact rotate_negative. Qed.
Print Assumptions C14_rotate_negative_refuted.

(** Translation: right unless a line is moved by more than its length, *)
Theorem C14_translate_partial : forall imIn dx dy dz imOut bv,
  wf_img imIn -> wf_img imOut -> small (sz imIn) -> nonempty imIn -> sz imIn = sz imOut ->
  (Z.abs dx <= dw (sz imIn) \/ Z.abs dy >= dh (sz imIn) \/ Z.abs dz >= dd (sz imIn)) ->
  exists out, translate imIn dx dy dz imOut bv = Some (1, out) /\ wf_img out /\ sz out = sz imIn /\
    forall x y z v, inside (sz imIn) x y z ->
      (inside (sz imIn) (x - dx) (y - dy) (z - dz) -> (pixel_is out x y z v <-> pixel_is imIn (x - dx) (y - dy) (z - dz) v)) /\
      (~ inside (sz imIn) (x - dx) (y - dy) (z - dz) -> (pixel_is out x y z v <-> v = bv)).
Proof. exact translate_ok. Qed.
Print Assumptions C14_translate_partial.

(** ... when memory outside the images is accessed. *)
Theorem C14_translate_refuted : forall imIn dx dy dz imOut bv,
  wf_img imIn -> wf_img imOut -> small (sz imIn) -> nonempty imIn -> sz imIn = sz imOut ->
  dw (sz imIn) < 2 ^ 31 -> dw (sz imIn) < Z.abs dx < 2 ^ 31 -> Z.abs dy < dh (sz imIn) -> Z.abs dz < dd (sz imIn) ->
  translate imIn dx dy dz imOut bv = None.
Proof. exact translate_oob. Qed.
Print Assumptions C14_translate_refuted.

(** In place, translation does not give the translated image. *)
Theorem C14_translate_inplace_refuted : exists im dx out1 out2,
  wf_img im /\ translate im dx 0 0 im 0 = Some (1, out1) /\ translate_inplace im dx 0 0 0 = Some (1, out2) /\ out1 <> out2.
Proof.
  exists (Img (Dims 3 1 1) [1; 2; 3]), 1. do 2 eexists. split; [repeat split; cbn; discriminate|].
  split; [vm_compute; reflexivity|]. split; [vm_compute; reflexivity|]. discriminate.
Qed.
Print Assumptions C14_translate_inplace_refuted.

(** Transposition. *)
Theorem C14_transpose : forall junk sched imIn imOut order a b c,
  legal_sched sched -> wf_img imIn -> wf_img imOut -> small (sz imIn) -> names_axes order a b c ->
  exists out, matTranspose junk sched imIn order imOut = Some (1, out) /\ transposed a b c imIn out.
Proof. exact transpose_ok. Qed.
Print Assumptions C14_transpose.

Theorem C14_transpose_short : forall junk sched imIn imOut,
  matTranspose junk sched imIn "xy" imOut = matTranspose junk sched imIn "xyz" imOut /\
  matTranspose junk sched imIn "yx" imOut = matTranspose junk sched imIn "yxz" imOut /\
  matTranspose junk sched imIn "" imOut = matTranspose junk sched imIn "yxz" imOut.
Proof. exact transpose_short. Qed.
Print Assumptions C14_transpose_short.

Theorem C14_transpose_unknown : forall junk sched imIn imOut order, ~ known_order order ->
  matTranspose junk sched imIn order imOut = Some (-100, imOut).
Proof. exact transpose_unknown. Qed.
Print Assumptions C14_transpose_unknown.

Definition ex14 := Img (Dims 2 2 2) [1; 2; 3; 4; 5; 6; 7; 8].
Example C14_case : wf_img ex14 /\ names_axes "yzx" "y"%char "z"%char "x"%char /\ ~ known_order "zz" /\
  flipIt (@rev _) true ex14 ex14 = Some (1, Img (Dims 2 2 2) [3; 4; 1; 2; 7; 8; 5; 6]) /\
  rotateX90 (fun _ => 77) (@rev _) ex14 5 ex13 = Some (1, Img (Dims 2 2 2) [3; 1; 4; 2; 7; 5; 8; 6]) /\
  rotateX90 (fun _ => 77) (@rev _) ex13 3 ex14 = Some (1, Img (Dims 2 3 1) [3; 6; 2; 5; 1; 4]) /\
  translate ex13 (-1) 1 0 ex13 0 = Some (1, Img (Dims 3 2 1) [0; 0; 0; 2; 3; 0]) /\
  matTranspose (fun _ => 77) (fun l => l ++ rev l) ex13 "yxz" ex14 = Some (1, Img (Dims 2 3 1) [1; 4; 2; 5; 3; 6]).
Proof.
  split; [repeat split; cbn; discriminate|]. split; [split; [reflexivity|cbn; tauto]|].
  split; [intros H; cbn in H; repeat destruct H as [H|H]; try discriminate; exact H|].
  vm_compute. repeat split.
Qed.
