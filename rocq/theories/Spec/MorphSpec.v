(** Specification vocabulary for dilations, erosions and the operators built on them. *)
From Verif Require Export Spec.ImageSpec Model.StrElt Model.Morph.
From Coq Require Export Permutation.

(** A legal schedule executes every iteration exactly once. *)
Definition perm_sched {A} (sched : list A -> list A) : Prop := forall l, Permutation (sched l) l.

(** Legal choices of the OpenMP runtime for an image of [h] lines: there is at least one thread, loops are
    rearranged, and between the barriers each thread gets enough turns to finish (a thread that has finished
    ignores the turns it is given). *)
Definition legal_conf (h : Z) (c : conf) : Prop :=
  1 <= nThreads c /\ perm_sched (lineSched c) /\ perm_sched (ySched c) /\ (forall z, perm_sched (lastSched c z)) /\
  (forall z t, In t (midSched c z) -> 0 <= t < block_threads c h) /\
  (forall z t, 0 <= t < block_threads c h -> h < Z.of_nat (count_occ Z.eq_dec (midSched c z) t)).

(** The value of the image at a point of the grid, the border value outside. *)
Definition reads (im : img) (bv x y z v : Z) : Prop :=
  pixel_is im x y z v \/ (~ inside (sz im) x y z /\ v = bv).

(** The x coordinate read for point [p] at pixel (x,y,z).  On the hexagonal grid, the even lines (of even
    slices) read one pixel to the left on the lines of the other parity. *)
Definition src_x (odd : bool) (x y z : Z) (p : point) : Z :=
  x - px_ p - (if odd && Z.even y && Z.even z && Z.odd (y - py_ p) then 1 else 0).

(** [v] is the greatest (least) element of the set [P]. *)
Definition greatest (P : Z -> Prop) (v : Z) : Prop := P v /\ forall u, P u -> u <= v.
Definition least (P : Z -> Prop) (v : Z) : Prop := P v /\ forall u, P u -> v <= u.

(** Structuring element [se], placed at (x,y,z), covers (x',y',z') when reading a source image. *)
Definition sees (se : strelt) (x y z x' y' z' : Z) : Prop :=
  exists p, In p (se_points se) /\ x' = src_x (se_odd se) x y z p /\ y' = y - py_ p /\ z' = z - pz_ p.

(** The values of [im] covered from (x,y,z), and the values at the places that cover (x,y,z). *)
Definition dil_values (se : strelt) (bv : Z) (im : img) (x y z v : Z) : Prop :=
  exists x' y' z', sees se x y z x' y' z' /\ reads im bv x' y' z' v.
Definition ero_values (se : strelt) (bv : Z) (im : img) (x y z v : Z) : Prop :=
  exists x' y' z', sees se x' y' z' x y z /\ reads im bv x' y' z' v.

(** The elementary dilation and erosion of [im] by the points of [se], with border value [bv]. *)
Definition dilated (se : strelt) (bv : Z) (im out : img) : Prop :=
  sz out = sz im /\ wf_img out /\ forall x y z v, pixel_is out x y z v -> greatest (dil_values se bv im x y z) v.
Definition eroded (se : strelt) (bv : Z) (im out : img) : Prop :=
  sz out = sz im /\ wf_img out /\ forall x y z v, pixel_is out x y z v -> least (ero_values se bv im x y z) v.

(** [n] passes of a transformation. *)
Fixpoint passes (n : nat) (R : img -> img -> Prop) (im out : img) : Prop :=
  match n with O => out = im | S n' => exists m, passes n' R im m /\ R m out end.

(** There is a path of [n] steps inside the grid [s] from (x,y,z) to (x',y',z'), each step leading to a covered voxel. *)
Fixpoint path (se : strelt) (s : dims) (n : nat) (x y z x' y' z' : Z) : Prop :=
  match n with
  | O => x' = x /\ y' = y /\ z' = z
  | S n' => exists x1 y1 z1, sees se x y z x1 y1 z1 /\ inside s x1 y1 z1 /\ path se s n' x1 y1 z1 x' y' z'
  end.

(** Some path of at most [n] steps leaves the grid. *)
Definition exits (se : strelt) (s : dims) (n : nat) (x y z : Z) : Prop :=
  exists k x1 y1 z1 x2 y2 z2, (k < n)%nat /\ path se s k x y z x1 y1 z1 /\ sees se x1 y1 z1 x2 y2 z2 /\ ~ inside s x2 y2 z2.

(** The type of an element announces its points, as the constructors of the predefined elements do. *)
Definition typed_se (se : strelt) : Prop :=
  match se_type se with
  | SE_Hex => se_odd se = true /\ (forall p, In p (se_points se) <-> In p (se_points (HexSE 1)))
  | SE_Squ => se_odd se = false /\ (forall p, In p (se_points se) <-> In p (se_points (SquSE 1)))
  | SE_Horiz => se_odd se = false /\ (forall p, In p (se_points se) <-> In p (se_points (HorizSE 1)))
  | SE_Cross => se_odd se = false /\ (forall p, In p (se_points se) <-> In p (se_points (CrossSE 1)))
  | SE_Vert => se_odd se = false /\ (forall p, In p (se_points se) <-> In p (se_points (VertSE 1)))
  | SE_Cube => se_odd se = false /\ (forall p, In p (se_points se) <-> In p (se_points (CubeSE 1)))
  | SE_Rhombicuboctahedron => False
  | _ => se_points se <> []
  end.

(** The element fits the image: no point is further than the width (a limit of [shiftLine]), the passes that
    work on pairs of lines have two lines, and hexagonal elements are used on images of one slice. *)
Definition fits (se : strelt) (s : dims) : Prop :=
  match se_type se with
  | SE_Hex => 2 <= dh s /\ dd s = 1
  | SE_Squ | SE_Cross | SE_Vert | SE_Cube => 2 <= dh s
  | SE_Horiz => True
  | _ => forall p, In p (se_points se) -> - dw s <= px_ p /\ px_ p + bit (se_odd se) <= dw s
  end.

(** Hexagonal elements are planar and used on images of one slice. *)
Definition planar (se : strelt) (s : dims) : Prop := se_odd se = true -> dd s = 1 /\ forall p, In p (se_points se) -> pz_ p = 0.

(** An element usable on images of size [s], and so is its reflection. *)
Definition good_se (se : strelt) (s : dims) : Prop :=
  typed_se se /\ 0 <= se_size se /\ fits se s /\ fits (transpose se) s /\ planar se s.

(** An image the morphological operators accept: no empty dimension, width in a signed 64 bit integer. *)
Definition good_img (im : img) : Prop := wf_img im /\ nonempty im /\ dw (sz im) < 2 ^ 63.

(** Pixelwise order. *)
Definition le_img (a b : img) : Prop := forall x y z u v, pixel_is a x y z u -> pixel_is b x y z v -> u <= v.

(** Pointwise combinations of images. *)
Definition pointwise2 (f : Z -> Z -> Z) (a b r : img) : Prop :=
  sz r = sz a /\ sz r = sz b /\ wf_img r /\ forall x y z u v, pixel_is a x y z u -> pixel_is b x y z v -> pixel_is r x y z (f u v).

(** [b] is the photographic negative of [a] for pixel type [t]. *)
Definition negative (t : ity) (a b : img) : Prop :=
  sz b = sz a /\ wf_img b /\ forall x y z u, pixel_is a x y z u -> pixel_is b x y z (tmin t + tmax t - u).

(** The points of [se'] are those of [se] reflected. *)
Definition mirrored (se se' : strelt) : Prop :=
  se_odd se' = se_odd se /\ se_size se' = se_size se /\ forall p, In p (se_points se') <-> In p (se_points (transpose se)).

(** The values of [im] in the box of half sides a, b, c centred on (x,y,z), the border value outside the image. *)
Definition box_values (a b c bv : Z) (im : img) (x y z v : Z) : Prop :=
  exists x' y' z', Z.abs (x' - x) <= a /\ Z.abs (y' - y) <= b /\ Z.abs (z' - z) <= c /\ reads im bv x' y' z' v.

(** The values of [im] at city block distance at most n, in the plane (k = 0) or in space (k = 1). *)
Definition ball_values (k n bv : Z) (im : img) (x y z v : Z) : Prop :=
  exists x' y' z', Z.abs (x' - x) + Z.abs (y' - y) + Z.abs (z' - z) <= n /\ (k = 0 -> z' = z) /\ reads im bv x' y' z' v.

(** (x',y',z') is reached from (x,y,z) in [n] steps, each to a covered place, the image not being considered. *)
Fixpoint steps (se : strelt) (n : nat) (x y z x' y' z' : Z) : Prop :=
  match n with
  | O => x' = x /\ y' = y /\ z' = z
  | S n' => exists x1 y1 z1, steps se n' x y z x1 y1 z1 /\ sees se x1 y1 z1 x' y' z'
  end.

(** A call of a morphological operator on [im] writing [out] under a legal execution. *)
Definition call_ok (cs : nat -> conf) (alias : bool) (im out : img) : Prop :=
  good_img im /\ wf_img out /\ sz out = sz im /\ (alias = true -> out = im) /\ forall k, legal_conf (dh (sz im)) (cs k).
