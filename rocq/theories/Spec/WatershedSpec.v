(** Specification vocabulary for flooding from markers. *)
From Verif Require Export Spec.LabelSpec Model.Watershed.

(** A call: images of the same size, of pixel type [t] and [t2]. *)
Definition flood_ok (t t2 : ity) (se : strelt) (im markers : img) : Prop :=
  (t = UINT8 \/ t = UINT16) /\ wf_img im /\ wf_img markers /\ sz markers = sz im /\ typed_img t im /\ typed_img t2 markers /\
  int_sized (sz im) /\ 0 < dw (sz im) /\ int_points se /\ planar se (sz im).

(** A pixel of a marker. *)
Definition in_marker (markers : img) (x y z : Z) : Prop := exists l, pixel_is markers x y z l /\ l <> 0.

(** The pixel is reached from a marker of label [l] through pixels labelled [l] by [out] of value at most [h] in [im]. *)
Inductive basin_path (se : strelt) (im markers out : img) (l h : Z) : Z -> Z -> Z -> Prop :=
| bp_start x y z v : pixel_is markers x y z l -> pixel_is im x y z v -> v <= h -> basin_path se im markers out l h x y z
| bp_step x y z x' y' z' v : basin_path se im markers out l h x' y' z' -> sees se x y z x' y' z' -> pixel_is im x y z v -> v <= h ->
    pixel_is out x y z l -> basin_path se im markers out l h x y z.

(** What flooding gives: the labels of the markers are kept; exactly the pixels that can be reached from a marker are
    labelled; and a pixel has the label of a marker from which it is flooded at level [h] inside the basin, no marker
    reaching it below level [h]. *)
Definition flooded (se : strelt) (im markers out : img) : Prop :=
  sz out = sz im /\ wf_img out /\
  (forall x y z l, pixel_is markers x y z l -> l <> 0 -> pixel_is out x y z l) /\
  (forall x y z l, pixel_is out x y z l -> (l <> 0 <-> joined se (fun _ => True) (in_marker markers) im x y z)) /\
  (forall x y z l, pixel_is out x y z l -> l <> 0 ->
     exists h, basin_path se im markers out l h x y z /\ ~ joined se (fun b => b < h) (in_marker markers) im x y z).

(** The points of the element are distinct. *)
Definition distinct_points (se : strelt) : Prop := NoDup (se_points se).

(** The pixel is reached from a marker of label [l] through pixels labelled [l]. *)
Inductive in_basin (se : strelt) (markers out : img) (l : Z) : Z -> Z -> Z -> Prop :=
| ib_start x y z : pixel_is markers x y z l -> in_basin se markers out l x y z
| ib_step x y z x' y' z' : in_basin se markers out l x' y' z' -> sees se x y z x' y' z' -> pixel_is out x y z l ->
    in_basin se markers out l x y z.

(** The pixel is reached from a marker of label [l] through pixels labelled [l], outside the lines and of value at most
    [h]. *)
Inductive inner_path (se : strelt) (im markers lines out : img) (l h : Z) : Z -> Z -> Z -> Prop :=
| ip_start x y z v : pixel_is markers x y z l -> pixel_is im x y z v -> v <= h -> pixel_is lines x y z 0 ->
    inner_path se im markers lines out l h x y z
| ip_step x y z x' y' z' v : inner_path se im markers lines out l h x' y' z' -> sees se x y z x' y' z' -> pixel_is im x y z v ->
    v <= h -> pixel_is out x y z l -> pixel_is lines x y z 0 -> inner_path se im markers lines out l h x y z.

(** The pixel is reached from some marker through pixels of value less than [h], all but the last one outside the
    lines. *)
Inductive free_path (se : strelt) (im markers lines : img) (h : Z) : Z -> Z -> Z -> Prop :=
| fp_start x y z v : in_marker markers x y z -> pixel_is im x y z v -> v < h -> free_path se im markers lines h x y z
| fp_step x y z x' y' z' v : free_path se im markers lines h x' y' z' -> pixel_is lines x' y' z' 0 -> sees se x y z x' y' z' ->
    pixel_is im x y z v -> v < h -> free_path se im markers lines h x y z.

(** What watershed gives.  [lines] holds the lines, [out] the basins. *)
Definition watershed_ok (t : ity) (se : strelt) (im markers lines out : img) : Prop :=
  sz lines = sz markers /\ wf_img lines /\ sz out = sz markers /\ wf_img out /\
  (forall x y z w, pixel_is lines x y z w -> w = 0 \/ w = tmax t) /\
  (** markers are kept *)
  (forall x y z l, pixel_is markers x y z l -> l <> 0 -> pixel_is out x y z l) /\
  (** every basin grows from its markers *)
  (forall x y z l, pixel_is out x y z l -> l <> 0 -> in_basin se markers out l x y z) /\
  (** neighbours outside the lines are labelled and have the same label *)
  (forall x y z x' y' z' l l', sees se x y z x' y' z' -> pixel_is lines x y z 0 -> pixel_is lines x' y' z' 0 ->
     pixel_is out x y z l -> pixel_is out x' y' z' l' -> l <> 0 /\ l = l') /\
  (** a pixel outside the lines is labelled *)
  (forall x y z l, pixel_is lines x y z 0 -> pixel_is out x y z l -> l <> 0) /\
  (** a pixel outside the lines is flooded by its basin at some level, and no marker reaches it below that level without
      crossing a line *)
  (forall x y z l, pixel_is lines x y z 0 -> pixel_is out x y z l ->
     exists h, inner_path se im markers lines out l h x y z /\ ~ free_path se im markers lines h x y z) /\
  (** a pixel of a line has a neighbour of another label, or is cut off from every basin by the lines *)
  (forall x y z l, pixel_is lines x y z (tmax t) -> pixel_is out x y z l ->
     (l <> 0 /\ exists x' y' z' l', sees se x y z x' y' z' /\ pixel_is out x' y' z' l' /\ l' <> 0 /\ l' <> l) \/
     (l = 0 /\ forall x' y' z' w, sees se x y z x' y' z' -> pixel_is lines x' y' z' w -> w = tmax t)).
