(** Specification of the scan of the neighbourhoods. *)
From Verif Require Export Spec.LabelSpec Spec.GraphSpec Model.Scan.

(** The place designated by point [p] of the element put on pixel (x,y,z): on the hexagonal grid, from the odd lines, the even
    lines are shifted by one pixel to the right. *)
Definition place (se : strelt) (c : Z * Z * Z) (p : point) : Z * Z * Z :=
  let '(x, y, z) := c in (x + px_ p + (if se_odd se && Z.odd y && Z.even (y + py_ p) then 1 else 0), y + py_ p, z + pz_ p).
Definition insideb3 (s : dims) (c : Z * Z * Z) : bool :=
  let '(x, y, z) := c in (0 <=? x) && (x <? dw s) && (0 <=? y) && (y <? dh s) && (0 <=? z) && (z <? dd s).
(** The neighbours of a pixel inside the image, in the order of the points of the element. *)
Definition nbhd (se : strelt) (s : dims) (c : Z * Z * Z) : list (Z * Z * Z) := filter (insideb3 s) (map (place se c) (se_points se)).

(** All the pixels, in raster order. *)
Definition raster (s : dims) : list (Z * Z * Z) :=
  flat_map (fun z => flat_map (fun y => map (fun x => (x, y, z)) (zseq (dw s))) (zseq (dh s))) (zseq (dd s)).

(** The conditions under which the scan is right: no point is further than the width, some point is not to the left of the
    centre, and on the hexagonal grid the points that may be shifted are not the rightmost ones. *)
Definition scannable (se : strelt) (s : dims) : Prop :=
  int_sized s /\ 0 < dw s /\ int_points se /\ (forall p, In p (se_points se) -> - dw s <= px_ p <= dw s) /\ (exists p, In p (se_points se) /\ 0 <= px_ p) /\
  (se_odd se = true -> forall p, In p (se_points se) -> Z.odd (py_ p) = true -> exists q, In q (se_points se) /\ px_ p + 1 <= px_ q).

(** The values of an image on a list of pixels. *)
Definition values_on (im : img) (l : list (Z * Z * Z)) : list Z := map (fun p => znth 0 (pixs im) (scan_pos (sz im) p)) l.

(** The output of a filter computed at each pixel from the values of its neighbours. *)
Definition filtered (F : list Z -> Z -> Prop) (se : strelt) (im out : img) : Prop :=
  sz out = sz im /\ wf_img out /\ forall x y z v, pixel_is out x y z v -> F (values_on im (nbhd se (sz im) (x, y, z))) v.

(** [v] is the value of rank [k] (from 0) of the list. *)
Definition count_if (P : Z -> bool) (l : list Z) : Z := Z.of_nat (length (filter P l)).
Definition ranked (k : Z) (l : list Z) (v : Z) : Prop := In v l /\ count_if (fun u => u <? v) l <= k < count_if (fun u => u <=? v) l.

(** ** Mosaics *)

(** The value at a pixel. *)
Definition at3 (im : img) (c : Z * Z * Z) : Z := znth 0 (pixs im) (scan_pos (sz im) c).
(** All the pairs of a pixel and one of its neighbours, in the order of the traversal. *)
Definition visits (se : strelt) (s : dims) : list ((Z * Z * Z) * (Z * Z * Z)) := flat_map (fun c => map (fun q => (c, q)) (nbhd se s c)) (raster s).

(** Pixel [p] has label [a] and one of its neighbours, [q], has another label [b]. *)
Definition meets (se : strelt) (im : img) (p q : Z * Z * Z) (a b : Z) : Prop :=
  In p (raster (sz im)) /\ In q (nbhd se (sz im) p) /\ values_on im [p; q] = [a; b] /\ a <> b.
(** The labels are adjacent. *)
Definition adjacent (se : strelt) (im : img) (a b : Z) : Prop := exists p q, meets se im p q a b \/ meets se im p q b a.

(** Labels [a] and [b] are joined through labels that are adjacent, the least value of [ev] over the contacts being at most [th]
    at each step. *)
Inductive merged (se : strelt) (im ev : img) (th : Z) (a : Z) : Z -> Prop :=
| merged_refl : merged se im ev th a a
| merged_step b c p q : merged se im ev th a b -> meets se im p q b c \/ meets se im p q c b -> at3 ev p <= th -> merged se im ev th a c.
