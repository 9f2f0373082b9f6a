(** Specification vocabulary for images as values. *)
From Verif Require Export Spec.PixelSpec Model.Image.

(** A well-formed image: non-negative dimensions and one pixel per voxel. *)
Definition wf_img (im : img) : Prop :=
  wf_dims (sz im) /\ Z.of_nat (length (pixs im)) = dw (sz im) * dh (sz im) * dd (sz im).

(** Every pixel is a value of type [t]. *)
Definition typed_img (t : ity) (im : img) : Prop := Forall (inty t) (pixs im).

(** Pixel [(x,y,z)] of the image holds [v]. *)
Definition pixel_is (im : img) (x y z v : Z) : Prop :=
  inside (sz im) x y z /\ rd (pixs im) (voxel_offset (dw (sz im)) (dh (sz im)) x y z) = Some v.

(** The pixels considered by a measure: all, or the nonzero ones. *)
Definition considered (onlyNonZero : bool) (im : img) : list Z :=
  if onlyNonZero then filter (fun v => negb (v =? 0)) (pixs im) else pixs im.

Definition Zsum (l : list Z) : Z := fold_right Z.add 0 l.

(** The pixels taken into account by a histogram: all, or those where the mask is nonzero. *)
Definition counted (im : img) (mask : option img) : list Z :=
  match mask with
  | None => pixs im
  | Some m => map fst (filter (fun p => negb (snd p =? 0)) (combine (pixs im) (pixs m)))
  end.

(** The pixel at (x,y,z) is not zero. *)
Definition nonzero_at (im : img) (x y z : Z) : Prop := exists v, v <> 0 /\ pixel_is im x y z v.

(** Number of positive elements of [l], and of those at most [m]. *)
Definition pos_all (l : list Z) : Z := Z.of_nat (length (filter (fun v => 0 <? v) l)).
Definition pos_le (m : Z) (l : list Z) : Z := Z.of_nat (length (filter (fun v => (0 <? v) && (v <=? m)) l)).

(** Labels considered when 0 may be excluded. *)
Definition label_kept (onlyNonZero : bool) (v : Z) : bool := negb (v =? 0) || negb onlyNonZero.

(** A run (offset, size) is not empty and lies in one line of width [w]. *)
Definition run_in_line (w : Z) (s : Z * Z) : Prop := 0 < snd s /\ fst s / w = (fst s + snd s - 1) / w.

(** The offsets covered by a list of runs, in order. *)
Definition run_pixels (l : list (Z * Z)) : list Z := flat_map (fun s => zrange (fst s) (snd s)) l.

(** The values of [im] at the pixels where the label image holds [v], in raster order. *)
Definition zone (im labels : img) (v : Z) : list Z :=
  map fst (filter (fun p => snd p =? v) (combine (pixs im) (pixs labels))).

(** A legal schedule of a parallel loop: every iteration is executed, and no other. *)
Definition legal_sched {A} (sched : list A -> list A) : Prop := forall l i, In i (sched l) <-> In i l.

(** [im] and [im'] have the same pixels. *)
Definition same_pixels (im im' : img) : Prop := forall x y z v, pixel_is im x y z v <-> pixel_is im' x y z v.

(** The image is non-empty. *)
Definition nonempty (im : img) : Prop := 0 < dw (sz im) /\ 0 < dh (sz im) /\ 0 < dd (sz im).

(** [out] is [im] turned clockwise by a quarter turn about the z axis (y axis pointing down). *)
Definition quarter (im out : img) : Prop :=
  sz out = Dims (dh (sz im)) (dw (sz im)) (dd (sz im)) /\ wf_img out /\
  forall x y z v, inside (sz out) x y z -> (pixel_is out x y z v <-> pixel_is im y (dh (sz im) - 1 - x) z v).

Fixpoint turns (n : nat) (im out : img) : Prop :=
  match n with O => out = im | S n' => exists m, quarter im m /\ turns n' m out end.
