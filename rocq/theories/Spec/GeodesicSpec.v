(** Specification vocabulary for geodesic transformations. *)
From Verif Require Export Spec.MorphSpec Model.Geodesic.

(** Image and element small enough for the [int] coordinates of the code. *)
Definition int_sized (s : dims) : Prop :=
  0 <= dw s < 2 ^ 30 /\ 0 <= dh s < 2 ^ 30 /\ 0 <= dd s < 2 ^ 30 /\ dw s * dh s * dd s < 2 ^ 31.
Definition int_points (se : strelt) : Prop :=
  forall p, In p (se_points se) -> Z.abs (px_ p) < 2 ^ 30 /\ Z.abs (py_ p) < 2 ^ 30 /\ Z.abs (pz_ p) < 2 ^ 30.

(** The levels that flow to (x,y,z): a path starts at some pixel with the marker limited by the mask, and goes from pixel
    to pixel (the next one covers the previous one with [se]), limited by the mask at every pixel.  [lim] is the minimum
    (reconstruction by dilation) or the maximum (by erosion). *)
Inductive flows (lim : Z -> Z -> Z) (se : strelt) (marker mask : img) : Z -> Z -> Z -> Z -> Prop :=
| flow_start x y z a b : pixel_is marker x y z a -> pixel_is mask x y z b -> flows lim se marker mask x y z (lim a b)
| flow_step x y z x' y' z' v b : flows lim se marker mask x' y' z' v -> sees se x y z x' y' z' -> pixel_is mask x y z b ->
    flows lim se marker mask x y z (lim v b).

(** The same, along paths of at most [n] steps. *)
Inductive flows_in (lim : Z -> Z -> Z) (se : strelt) (marker mask : img) : nat -> Z -> Z -> Z -> Z -> Prop :=
| fi_start n x y z a b : pixel_is marker x y z a -> pixel_is mask x y z b -> flows_in lim se marker mask n x y z (lim a b)
| fi_step n x y z x' y' z' v b : flows_in lim se marker mask n x' y' z' v -> sees se x y z x' y' z' -> pixel_is mask x y z b ->
    flows_in lim se marker mask (S n) x y z (lim v b).

(** Reconstruction by dilation: the highest level that flows.  By erosion: the lowest. *)
Definition rebuilt (se : strelt) (marker mask R : img) : Prop :=
  sz R = sz mask /\ wf_img R /\ forall x y z v, pixel_is R x y z v -> greatest (flows Z.min se marker mask x y z) v.
Definition dual_rebuilt (se : strelt) (marker mask R : img) : Prop :=
  sz R = sz mask /\ wf_img R /\ forall x y z v, pixel_is R x y z v -> least (flows Z.max se marker mask x y z) v.

(** A call of a reconstruction: images of the same size, of pixel type [t], small enough. *)
Definition geo_ok (t : ity) (se : strelt) (marker mask out : img) : Prop :=
  (t = UINT8 \/ t = UINT16) /\ wf_img marker /\ wf_img mask /\ sz marker = sz mask /\ sz out = sz mask /\
  typed_img t marker /\ typed_img t mask /\ int_sized (sz mask) /\ int_points se /\ planar se (sz mask).

(** Number of turns enough for the flooding loops. *)
Definition enough (im : img) (fuel : nat) : Prop := (2 * length (pixs im) <= fuel)%nat.

(** What the iterated functions need. *)
Definition geo_run (t : ity) (se : strelt) (cs : nat -> nat -> conf) (marker mask out : img) : Prop :=
  geo_ok t se marker mask out /\ good_img mask /\ good_se se (sz mask) /\ In (0, 0, 0) (se_points se) /\ forall k j, legal_conf (dh (sz mask)) (cs k j).

(** Number of turns enough for geoBuild: the volume cannot change more often. *)
Definition geo_enough (im : img) (fuel : nat) : Prop := 65535 * (dw (sz im) * dh (sz im) * dd (sz im)) < Z.of_nat fuel.

(** The points of the element are symmetric. *)
Definition symmetric_se (se : strelt) : Prop := forall p, In p (se_points se) <-> In p (se_points (transpose se)).

(** (x,y,z) is joined to a seed by a path all of whose pixels in [im] have an admissible value. *)
Inductive joined (se : strelt) (ok : Z -> Prop) (seed : Z -> Z -> Z -> Prop) (im : img) : Z -> Z -> Z -> Prop :=
| joined_seed x y z b : seed x y z -> pixel_is im x y z b -> ok b -> joined se ok seed im x y z
| joined_step x y z x' y' z' b : joined se ok seed im x' y' z' -> sees se x y z x' y' z' -> pixel_is im x y z b -> ok b -> joined se ok seed im x y z.

(** The border of the image as fillHoles sees it: the faces in the directions of more than two pixels. *)
Definition on_border (s : dims) (x y z : Z) : Prop :=
  (2 < dw s /\ (x = 0 \/ x = dw s - 1)) \/ (2 < dh s /\ (y = 0 \/ y = dh s - 1)) \/ (2 < dd s /\ (z = 0 \/ z = dd s - 1)).

(** One can go from the pixel, of value [v], down to a lower pixel (up to a higher one) without climbing (descending). *)
Definition can_descend (se : strelt) (im : img) (x y z v : Z) : Prop :=
  joined se (fun b => b <= v) (fun x y z => exists a, pixel_is im x y z a /\ a < v) im x y z.
Definition can_ascend (se : strelt) (im : img) (x y z v : Z) : Prop :=
  joined se (fun b => v <= b) (fun x y z => exists a, pixel_is im x y z a /\ v < a) im x y z.

(** [out] holds the type maximum on the pixels where [P] holds of the coordinates and value, and 0 elsewhere. *)
Definition marks (t : ity) (P : Z -> Z -> Z -> Z -> Prop) (im out : img) : Prop :=
  sz out = sz im /\ wf_img out /\ forall x y z v, pixel_is im x y z v -> (P x y z v /\ pixel_is out x y z (tmax t)) \/ (~ P x y z v /\ pixel_is out x y z 0).

(** Pixelwise transformation. *)
Definition pointwise1 (f : Z -> Z) (a r : img) : Prop :=
  sz r = sz a /\ wf_img r /\ forall x y z u, pixel_is a x y z u -> pixel_is r x y z (f u).

(** A call of a function of one image. *)
Definition geo1_ok (t : ity) (se : strelt) (im out : img) : Prop :=
  (t = UINT8 \/ t = UINT16) /\ wf_img im /\ sz out = sz im /\ typed_img t im /\ int_sized (sz im) /\ int_points se /\ planar se (sz im).
