(** Specification vocabulary for extinction values. *)
From Coq Require Export Permutation Sorted.
From Verif Require Export Spec.WatershedSpec Spec.MaxTreeSpec Spec.GeodesicSpec Model.Extinction.

(** A call with markers: unsigned labels below the type maximum, and at least one marker. *)
Definition ext_call (t t2 : ity) (se : strelt) (im markers : img) : Prop :=
  flood_ok t t2 se im markers /\ tmin t2 = 0 /\ (forall x y z l, pixel_is markers x y z l -> l < tmax t2) /\
  exists x y z, in_marker markers x y z.

(** Turns enough for the loops: one per pixel, and one per label. *)
Definition turns (fuel : nat) (im markers : img) : Prop :=
  (length (pixs im) <= fuel)%nat /\ forall x y z l, pixel_is markers x y z l -> (Z.to_nat l <= fuel)%nat.

(** The same neighbours, seen both ways; all the pixels hold together; the markers are the regional minima. *)
Definition minima_call (t t2 : ity) (se : strelt) (im markers : img) : Prop :=
  ext_call t t2 se im markers /\ symmetric_se se /\ connecting se im /\ labels_zones se (is_min t se im) im markers.

(** [S] is made of all the pixels joined to (x,y,z) below the level [h], and of pixels joined to it at the level [h]. *)
Definition lake (se : strelt) (im : img) (h x y z : Z) (S : list (Z * Z * Z)) : Prop :=
  (forall x' y' z', lower_zone se im (h - 1) x y z x' y' z' -> In (x', y', z') S) /\
  (forall x' y' z', In (x', y', z') S -> lower_zone se im h x y z x' y' z').

(** The volume of water between the pixels of [S] and the level [h], modulo 2^32. *)
Definition water (im : img) (h : Z) (S : list (Z * Z * Z)) (w : Z) : Prop :=
  exists vs, Forall2 (fun '(x, y, z) v => pixel_is im x y z v) S vs /\ w = fold_right Z.add 0 (map (fun v => h - v) vs) mod 2 ^ 32.

(** ** What each criterion means for the marker at (x,y,z), of label [l] *)
(** Dynamic [v]: at the level a + v, and not before, the marker is joined to another one that is not higher. *)
Definition dynamic_of (se : strelt) (im markers : img) (x y z l a v : Z) : Prop :=
  (exists x' y' z' l' a', pixel_is markers x' y' z' l' /\ l' <> 0 /\ l' <> l /\ pixel_is im x' y' z' a' /\ a' <= a /\ lower_zone se im (a + v) x y z x' y' z') /\
  forall x' y' z' c, lower_zone se im (a + v - 1) x y z x' y' z' -> pixel_is im x' y' z' c -> a <= c.

(** Area [v]: the number of pixels of the lake of the marker when it meets another lake that is not smaller. *)
Definition area_of (se : strelt) (im markers : img) (x y z l v : Z) : Prop :=
  exists h x' y' z' l' S S', pixel_is markers x' y' z' l' /\ l' <> 0 /\ l' <> l /\ lower_zone se im h x y z x' y' z' /\
    NoDup (S ++ S') /\ lake se im h x y z S /\ lake se im h x' y' z' S' /\ v = Z.of_nat (length S) /\ (length S <= length S')%nat.

(** Volume [v]: the same for the water. *)
Definition volume_of (se : strelt) (im markers : img) (x y z l v : Z) : Prop :=
  exists h x' y' z' l' S S' w, pixel_is markers x' y' z' l' /\ l' <> 0 /\ l' <> l /\ lower_zone se im h x y z x' y' z' /\
    NoDup (S ++ S') /\ lake se im h x y z S /\ lake se im h x' y' z' S' /\ water im h S v /\ water im h S' w /\ v <= w.

(** What std::sort promises for the order of the decreasing keys. *)
Definition key_sorts (sort : (Z -> Z -> bool) -> list Z -> list Z) : Prop :=
  forall (key : Z -> Z) l, Permutation (sort (fun i j => key i >? key j) l) l /\ StronglySorted (fun i j => key j <= key i) (sort (fun i j => key i >? key j) l).
