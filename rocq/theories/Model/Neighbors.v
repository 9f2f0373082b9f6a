(** The scan of the neighbours of a pixel, written the same way in the algorithms driven by queues:
    DMorphoGeodesic.hpp:300-318, DMorphoLabel.hpp:143-163, DMorphoWatershed.hpp:175-197, DMorphoDistance.hpp:171-190. *)
From Verif Require Export Model.Image Model.StrElt Model.Measures.

(** [vector<int> dOffsets], DMorphoGeodesic.hpp:281-283: computed in [size_t], stored in [int]. *)
Definition dOffset (s : dims) (p : point) : Z := to_int (px_ p + py_ p * dw s + pz_ p * dw s * dh s).

(** [x >= 0 && x < (int) s[0] && ...], 311-312. *)
Definition in_bounds (s : dims) (x y z : Z) : bool :=
  (x >=? 0) && (x <? to_int (dw s)) && (y >=? 0) && (y <? to_int (dh s)) && (z >=? 0) && (z <? to_int (dd s)).

(** The offset of the neighbour of the pixel at offset [off], coordinates (x0,y0,z0), in the direction of point [p];
    [None] when it is outside the image.  300-317. *)
Definition nb_offset (se : strelt) (s : dims) (off : Z) (xyz : Z * Z * Z) (p : point) : option Z :=
  let '(x0, y0, z0) := xyz in
  let oddLine := se_odd se && negb (y0 mod 2 =? 0) in
  let x := to_int (x0 + px_ p) in
  let y := to_int (y0 + py_ p) in
  let z := to_int (z0 + pz_ p) in
  let shift := if oddLine then bit (oddb (y + 1)) else 0 in
  if in_bounds s (x + shift) y z then Some (to_size (to_size (off + dOffset s p) + shift)) else None.

(** [it->x != 0 || it->y != 0 || it->z != 0], 303-304. *)
Definition not_origin (p : point) : bool := negb (px_ p =? 0) || negb (py_ p =? 0) || negb (pz_ p =? 0).
