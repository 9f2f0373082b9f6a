(** Specification vocabulary for influence zones and waterfalls. *)
From Verif Require Export Spec.WatershedSpec Spec.LabelSpec Model.Zones.

(** A pixel of label [l] reaches (x,y,z) in [n] steps from neighbour to neighbour; all the pixels but the first one are in
    the mask. *)
Inductive arrives (se : strelt) (labels mask : img) : nat -> Z -> Z -> Z -> Z -> Prop :=
| arrives_start x y z l : pixel_is labels x y z l -> l <> 0 -> arrives se labels mask 0 x y z l
| arrives_step n x y z x' y' z' l m : arrives se labels mask n x' y' z' l -> sees se x y z x' y' z' -> inside (sz labels) x y z ->
    pixel_is mask x y z m -> m <> 0 -> arrives se labels mask (S n) x y z l.

(** The nearest labelled pixels are at [n] steps. *)
Definition at_steps (se : strelt) (labels mask : img) (n : nat) (x y z : Z) : Prop :=
  (exists l, arrives se labels mask n x y z l) /\ forall k l, arrives se labels mask k x y z l -> (n <= k)%nat.

(** All the nearest labelled pixels have label [l]: (x,y,z) is in the influence zone of [l]. *)
Definition in_zone (se : strelt) (labels mask : img) (l x y z : Z) : Prop :=
  exists n, at_steps se labels mask n x y z /\ arrives se labels mask n x y z l /\ forall l', arrives se labels mask n x y z l' -> l' = l.

(** Two of the nearest labelled pixels have different labels. *)
Definition in_between (se : strelt) (labels mask : img) (x y z : Z) : Prop :=
  exists n l l', at_steps se labels mask n x y z /\ arrives se labels mask n x y z l /\ arrives se labels mask n x y z l' /\ l <> l'.

(** A call of lblSkiz: the labels, and their complement in the second image. *)
Definition skiz_ok (t : ity) (se : strelt) (cs : nat -> nat -> nat -> conf) (l1 l2 mask : img) : Prop :=
  (t = UINT8 \/ t = UINT16) /\ good_img l1 /\ wf_img l2 /\ wf_img mask /\ sz l2 = sz l1 /\ sz mask = sz l1 /\
  typed_img t l1 /\ typed_img t l2 /\ typed_img t mask /\ dw (sz l1) * dh (sz l1) * dd (sz l1) < 2 ^ 31 /\
  typed_se se /\ se_size se = 1 /\ fits se (sz l1) /\ (forall k i j, legal_conf (dh (sz l1)) (cs k i j)) /\
  (forall x y z a b, pixel_is l1 x y z a -> pixel_is l2 x y z b -> (a = 0 /\ b = 0) \/ (a <> 0 /\ b = tmax t - a)).

(** Number of turns enough: the volume cannot change more often. *)
Definition skiz_enough (im : img) (fuel : nat) : Prop := 65535 * (dw (sz im) * dh (sz im) * dd (sz im)) + 1 < Z.of_nat fuel.

(** What lblSkiz gives: pixels no label reaches have 0 in both images; pixels of an influence zone have its label and the
    complement of its label; for the pixels in between, the two images hold different labels that reach the pixel (the
    greater one in the first image). *)
Definition zones (t : ity) (se : strelt) (labels mask r1 r2 : img) : Prop :=
  sz r1 = sz labels /\ sz r2 = sz labels /\ wf_img r1 /\ wf_img r2 /\ typed_img t r1 /\ typed_img t r2 /\
  forall x y z a b, pixel_is r1 x y z a -> pixel_is r2 x y z b ->
    ((forall n l, ~ arrives se labels mask n x y z l) /\ a = 0 /\ b = 0) \/
    (exists l, in_zone se labels mask l x y z /\ a = l /\ b = tmax t - l) \/
    (in_between se labels mask x y z /\ (exists n, arrives se labels mask n x y z a) /\
     (exists n, arrives se labels mask n x y z (tmax t - b)) /\ tmax t - b < a).

(** A call of inflBasins. *)
Definition basins_call (t2 : ity) (dse se : strelt) (cs : nat -> nat -> nat -> conf) (c1 c2 : nat -> conf) (im out : img) : Prop :=
  (t2 = UINT8 \/ t2 = UINT16) /\ good_img im /\ wf_img out /\ sz out = sz im /\ label_ok se im /\ typed_se se /\ se_size se = 1 /\ fits se (sz im) /\ good_se dse (sz im) /\
  (forall k i j, legal_conf (dh (sz im)) (cs k i j)) /\ (forall k, legal_conf (dh (sz im)) (c1 k)) /\ (forall k, legal_conf (dh (sz im)) (c2 k)).

(** One waterfall: from the gradient and the lines [ws] to a new gradient [g'], the reconstruction by erosion of the values of
    the gradient on the lines, and its watershed [ws']. *)
Definition one_fall (t : ity) (se : strelt) (g ws g' ws' : img) : Prop :=
  (exists marker, sz marker = sz g /\ wf_img marker /\
     (forall x y z w v, pixel_is ws x y z w -> pixel_is g x y z v -> pixel_is marker x y z (if w =? 0 then tmax t else v)) /\ dual_rebuilt se marker g g') /\
  typed_img t g' /\
  exists markers basins, labels_zones se (is_min t se g') g' markers /\ watershed_ok t se g' markers ws' basins.

(** [n] waterfalls. *)
Fixpoint falls (t : ity) (se : strelt) (n : nat) (g ws ws' : img) : Prop :=
  match n with O => ws' = ws | S n' => exists g1 ws1, one_fall t se g ws g1 ws1 /\ falls t se n' g1 ws1 ws' end.
