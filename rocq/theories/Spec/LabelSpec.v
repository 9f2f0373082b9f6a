(** Specification vocabulary for labelling. *)
From Coq Require Export Sorted.
From Verif Require Export Spec.GeodesicSpec Model.Label.

(** The applied element: homothety by its size (C03 says which pixels it reaches). *)
Definition scaled (se : strelt) : strelt := if se_size se >? 1 then homothety se (se_size se) else se.

(** One can go from the first pixel to the second from neighbour to neighbour, the values of successive pixels being
    related by [rel]. *)
Inductive linked (se : strelt) (rel : Z -> Z -> Prop) (im : img) (x0 y0 z0 : Z) : Z -> Z -> Z -> Prop :=
| linked_self v : pixel_is im x0 y0 z0 v -> linked se rel im x0 y0 z0 x0 y0 z0
| linked_next x y z u x' y' z' v : linked se rel im x0 y0 z0 x y z -> pixel_is im x y z u -> pixel_is im x' y' z' v ->
    sees se x' y' z' x y z -> rel v u -> linked se rel im x0 y0 z0 x' y' z'.

(** A call of a labelling function with an element whose applied points are symmetric. *)
Definition label_ok (se : strelt) (im : img) : Prop :=
  wf_img im /\ int_sized (sz im) /\ int_points (scaled se) /\ planar (scaled se) (sz im) /\ symmetric_se (scaled se).

(** Number of turns enough for one propagation. *)
Definition label_enough (im : img) (fuel : nat) : Prop := (length (pixs im) <= fuel)%nat.

(** The label given to the component number [k] (from 1) with labels of type [t]: below the type maximum, [k] itself. *)
Definition cyclic_label (t : ity) (k : Z) : Z := 1 + (k - 1) mod (tmax t - 1).

(** Position of a pixel in the order of the raster scan. *)
Definition scan_pos (s : dims) (p : Z * Z * Z) : Z := let '(x, y, z) := p in voxel_offset (dw s) (dh s) x y z.

(** [seeds] holds, for each component of [im] with nonzero pixels, the first of these pixels; they are in raster order. *)
Definition component_seeds (se : strelt) (rel : Z -> Z -> Prop) (im : img) (seeds : list (Z * Z * Z)) : Prop :=
  (forall x y z, In (x, y, z) seeds -> exists v, pixel_is im x y z v /\ v <> 0) /\
  StronglySorted (fun p q => scan_pos (sz im) p < scan_pos (sz im) q) seeds /\
  (forall i j x y z x' y' z', rd seeds i = Some (x, y, z) -> rd seeds j = Some (x', y', z') -> linked se rel im x y z x' y' z' -> i = j) /\
  (forall x y z v, pixel_is im x y z v -> v <> 0 -> exists x' y' z', In (x', y', z') seeds /\ linked se rel im x' y' z' x y z) /\
  (forall x y z x' y' z' v, In (x, y, z) seeds -> linked se rel im x y z x' y' z' -> pixel_is im x' y' z' v -> v <> 0 ->
     scan_pos (sz im) (x, y, z) <= scan_pos (sz im) (x', y', z')).

(** [out] labels [im]: the label of a pixel is given by the rank of the seed of its component; 0 when the pixel is linked to
    no nonzero pixel. *)
Definition labelled_by (t : ity) (se : strelt) (rel : Z -> Z -> Prop) (im out : img) (seeds : list (Z * Z * Z)) : Prop :=
  sz out = sz im /\ wf_img out /\ component_seeds se rel im seeds /\
  (forall x y z o, pixel_is out x y z o ->
     (o = 0 /\ forall x' y' z' v, pixel_is im x' y' z' v -> v <> 0 -> ~ linked se rel im x' y' z' x y z) \/
     (exists i x' y' z', rd seeds i = Some (x', y', z') /\ linked se rel im x' y' z' x y z /\ o = cyclic_label t (i + 1))).

(** [l] is the list of the pixels linked to (x,y,z). *)
Definition component_list (se : strelt) (rel : Z -> Z -> Prop) (im : img) (x y z : Z) (l : list (Z * Z * Z)) : Prop :=
  NoDup l /\ forall x' y' z', In (x', y', z') l <-> linked se rel im x y z x' y' z'.

(** The pixels of [reps] reach every nonzero pixel: there are at most as many components as elements in [reps]. *)
Definition reaches_all (se : strelt) (rel : Z -> Z -> Prop) (im : img) (reps : list (Z * Z * Z)) : Prop :=
  forall x y z v, pixel_is im x y z v -> v <> 0 -> exists a b c, In (a, b, c) reps /\ linked se rel im a b c x y z.

(** Two values, one of them 0. *)
Definition two_valued (im : img) (c : Z) : Prop := c <> 0 /\ In 0 (pixs im) /\ In c (pixs im) /\ forall v, In v (pixs im) -> v = 0 \/ v = c.

(** The values of [im] on the pixels of a list. *)
Definition sum_on (im : img) (l : list (Z * Z * Z)) : Z := Zsum (map (fun p => znth 0 (pixs im) (scan_pos (sz im) p)) l).

(** The areas that areaThreshold keeps. *)
Definition area_keep (gt : bool) (threshold a : Z) : bool := if gt then threshold <=? a else a <=? threshold.

(** A regional minimum (maximum) below the type maximum (above the type minimum). *)
Definition is_min (t : ity) (se : strelt) (im : img) (x y z v : Z) : Prop := v < tmax t /\ ~ can_descend se im x y z v.
Definition is_max (t : ity) (se : strelt) (im : img) (x y z v : Z) : Prop := tmin t < v /\ ~ can_ascend se im x y z v.

(** [res] labels the extrema of [im]: nonzero on them only; two pixels of extrema have the same label when they belong to
    the same plateau. *)
Definition labels_zones (se : strelt) (P : Z -> Z -> Z -> Z -> Prop) (im res : img) : Prop :=
  sz res = sz im /\ wf_img res /\
  (forall x y z v o, pixel_is im x y z v -> pixel_is res x y z o -> (o <> 0 <-> P x y z v)) /\
  (forall x y z v x' y' z' v' o o', pixel_is im x y z v -> pixel_is im x' y' z' v' -> P x y z v -> P x' y' z' v' ->
     pixel_is res x y z o -> pixel_is res x' y' z' o' -> (o = o' <-> linked se eq im x y z x' y' z')).
