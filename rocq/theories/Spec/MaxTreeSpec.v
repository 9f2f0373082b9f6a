(** Specification vocabulary for attribute openings. *)
From Verif Require Export Spec.WatershedSpec Model.MaxTree.

(** The connected component of the pixels of value at least [h] that contains (x,y,z). *)
Definition upper_zone (se : strelt) (im : img) (h x y z : Z) : Z -> Z -> Z -> Prop :=
  joined se (fun b => h <= b) (fun a b c => a = x /\ b = y /\ c = z) im.

(** The area, the height or the width of a set of pixels is at least [n]. *)
Definition zone_has (k : ckind) (n : Z) (S : Z -> Z -> Z -> Prop) : Prop :=
  match k with
  | CArea => exists l, NoDup l /\ n <= Z.of_nat (length l) /\ forall x y z, In (x, y, z) l -> S x y z
  | CHeight => exists x y z x' y' z', S x y z /\ S x' y' z' /\ n <= y' - y + 1
  | CWidth => exists x y z x' y' z', S x y z /\ S x' y' z' /\ n <= x' - x + 1
  end.

Definition least_value (im : img) (m : Z) : Prop :=
  (exists x y z, pixel_is im x y z m) /\ forall x y z v, pixel_is im x y z v -> m <= v.

(** Every pixel gets the highest level, not above its value, whose component around it has the attribute; the least value of
    the image if there is none. *)
Definition attr_opened (k : ckind) (n : Z) (se : strelt) (im out : img) : Prop :=
  sz out = sz im /\ wf_img out /\
  exists m, least_value im m /\
  forall x y z v o, pixel_is im x y z v -> pixel_is out x y z o ->
    m <= o <= v /\ (o = m \/ zone_has k n (upper_zone se im o x y z)) /\
    forall h, o < h <= v -> ~ zone_has k n (upper_zone se im h x y z).

(** One can go from any pixel to any other from neighbour to neighbour. *)
Definition connecting (se : strelt) (im : img) : Prop :=
  forall x y z x' y' z', inside (sz im) x y z -> inside (sz im) x' y' z' ->
    joined se (fun _ => True) (fun a b c => a = x /\ b = y /\ c = z) im x' y' z'.

(** A call. *)
Definition tree_ok (t : ity) (se : strelt) (im : img) : Prop :=
  (t = UINT8 \/ t = UINT16) /\ wf_img im /\ typed_img t im /\ int_sized (sz im) /\ int_points se /\ planar se (sz im) /\
  symmetric_se se /\ connecting se im /\ 0 < dw (sz im) * dh (sz im) * dd (sz im) < MAX_NODES.

(** The connected component of the pixels of value at most [h] that contains (x,y,z). *)
Definition lower_zone (se : strelt) (im : img) (h x y z : Z) : Z -> Z -> Z -> Prop :=
  joined se (fun b => b <= h) (fun a b c => a = x /\ b = y /\ c = z) im.

Definition greatest_value (im : img) (m : Z) : Prop :=
  (exists x y z, pixel_is im x y z m) /\ forall x y z v, pixel_is im x y z v -> v <= m.

(** Every pixel gets the lowest level, not below its value, whose component around it has the attribute; the greatest value of
    the image if there is none. *)
Definition attr_closed (k : ckind) (n : Z) (se : strelt) (im out : img) : Prop :=
  sz out = sz im /\ wf_img out /\
  exists m, greatest_value im m /\
  forall x y z v o, pixel_is im x y z v -> pixel_is out x y z o ->
    v <= o <= m /\ (o = m \/ zone_has k n (lower_zone se im o x y z)) /\
    forall h, v <= h < o -> ~ zone_has k n (lower_zone se im h x y z).
