(** Images as values: dimensions and the pixel array in raster order (Core/include/private/DImage.hxx:
    296-332, one allocation of [pixelCount] pixels).  Used by the operations that are modelled as
    functions from input images to output images. *)
From Verif Require Export Model.Geometry Model.ZMap.

Record img := Img { sz : dims; pixs : list Z }.

Definition width (im : img) : Z := dw (sz im).
Definition height (im : img) : Z := dh (sz im).
Definition depth (im : img) : Z := dd (sz im).

(** The counter values a, a+1, ..., a+n-1. *)
Definition zrange (a n : Z) : list Z := map (fun k => a + k) (zseq n).

(** The [n] array cells from [a]; [None]: outside the array. *)
Definition subarray {A} (l : list A) (a n : Z) : option (list A) :=
  if (0 <=? a) && (0 <=? n) && (a + n <=? Z.of_nat (length l))
  then Some (firstn (Z.to_nat n) (skipn (Z.to_nat a) l)) else None.

(** Pixel at coordinates, through the line table ([getSlices()[z][y][x]]). *)
Definition pix_at (im : img) (x y z : Z) : option Z :=
  option_bind (slice_access (sz im) x y z) (rd (pixs im)).
