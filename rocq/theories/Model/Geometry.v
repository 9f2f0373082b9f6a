(** Image geometry: offsets, coordinates, line tables, ImageBox.

    [size_t]/[off_t] are 64-bit; results of unsigned arithmetic are taken modulo 2^64 and the
    conversion to [off_t] is two's complement. *)
From Verif Require Export Model.Prelude.

(** Conversion of a [size_t] to [off_t]. *)
Definition to_off (z : Z) : Z := (z + 2 ^ 63) mod 2 ^ 64 - 2 ^ 63.

(** Image dimensions (Core/include/DBaseImage.h, fields width/height/depth). *)
Record dims := Dims { dw : Z; dh : Z; dd : Z }.

(** [lineCount], [pixelCount] as set by [Image::setSize], Core/include/private/DImage.hxx:296-302. *)
Definition lineCount (s : dims) : Z := dd s * dh s.
Definition pixelCount (s : dims) : Z := lineCount s * dw s.

(** [BaseImage::isCoordsInImage(off_t,off_t,off_t)], Core/include/DBaseImage.h:192-199. *)
Definition isCoordsInImage (s : dims) (x y z : Z) : bool :=
  if (x <? 0) || (y <? 0) || (z <? 0) then false
  else if (x >=? dw s) || (y >=? dh s) || (z >=? dd s) then false
  else true.

(** [BaseImage::isCoordsInImage(size_t,size_t,size_t)], Core/include/DBaseImage.h:209-214; the
    arguments are converted to [size_t] at the call. *)
Definition isCoordsInImage_u (s : dims) (x y z : Z) : bool :=
  let x := to_size x in let y := to_size y in let z := to_size z in
  if (x >=? dw s) || (y >=? dh s) || (z >=? dd s) then false else true.

(** [BaseImage::isOffsetInImage(off_t)], Core/include/DBaseImage.h:222-229. *)
Definition isOffsetInImage (s : dims) (off : Z) : bool :=
  if off <? 0 then false else if off >? pixelCount s then false else true.

(** [BaseImage::isOffsetInImage(size_t)], Core/include/DBaseImage.h:237-242. *)
Definition isOffsetInImage_u (s : dims) (off : Z) : bool :=
  if to_size off >? pixelCount s then false else true.

(** [BaseImage::getOffsetFromCoords], Core/include/DBaseImage.h:245-254: the arguments are
    converted to [size_t], the sum is computed modulo 2^64 and converted to [off_t]. *)
Definition getOffsetFromCoords (s : dims) (x y z : Z) : Z :=
  let x := to_size x in let y := to_size y in let z := to_size z in
  if x >=? dw s then -1
  else if y >=? dh s then -1
  else if z >=? dd s then -1
  else to_off (to_size (z * dw s * dh s + y * dw s + x)).

(** [BaseImage::getCoordsFromOffset], Core/include/DBaseImage.h:257-263 (and 266-272, where the
    mixed signed/unsigned division is done in [size_t]).  [None]: division by zero. *)
Definition getCoordsFromOffset (s : dims) (off : Z) : option (Z * Z * Z) :=
  let off := to_size off in
  if (dw s * dh s =? 0) || (dw s =? 0) then None
  else
    let z := off / (dw s * dh s) in
    let y := (off mod (dw s * dh s)) / dw s in
    let x := off mod dw s in
    Some (x, y, z).

(** [Image::restruct], Core/include/private/DImage.hxx:334-357: the table of line starts, in the
    order of the nested loops over slices [k] and lines [j]. *)
Definition restruct_lines (s : dims) : list Z :=
  flat_map (fun k => map (fun j => k * (dw s * dh s) + j * dw s) (zseq (dh s))) (zseq (dd s)).

(** [Image::restruct], DImage.hxx:349-350: the table of slice starts, as indices into the line
    table ([cur_line] has advanced by [height] per slice). *)
Definition restruct_slices (s : dims) : list Z := map (fun k => k * dh s) (zseq (dd s)).

(** Pixel offset of [getSlices()[z][y][x]] (DImage.hpp:110-120 with the tables above).  [None] is an
    access outside one of the tables. *)
Definition slice_access (s : dims) (x y z : Z) : option Z :=
  option_bind (rd (restruct_slices s) z) (fun sl =>
  option_bind (rd (restruct_lines s) (sl + y)) (fun start => Some (start + x))).

(** [Image::getPixel(x,y,z)], Core/include/private/DImage.hpp:128-133 (ASSERT returns T(0)); outer
    [None] would be an access outside the pixel array. *)
Definition getPixel_xyz (s : dims) (px : list Z) (x y z : Z) : option Z :=
  let x := to_size x in let y := to_size y in let z := to_size z in
  if (x <? dw s) && (y <? dh s) && (z <? dd s)
  then rd px (to_size (z * dw s * dh s + y * dw s + x))
  else Some 0.

(** [Image::setPixel(x,y,z,value)], DImage.hpp:148-155 (ASSERT returns RES_ERR = -100). *)
Definition setPixel_xyz (s : dims) (px : list Z) (x y z v : Z) : option (Z * list Z) :=
  let x := to_size x in let y := to_size y in let z := to_size z in
  if (x <? dw s) && (y <? dh s) && (z <? dd s)
  then option_bind (wr px (to_size (z * dw s * dh s + y * dw s + x)) v) (fun px' => Some (1, px'))
  else Some (-100, px).

(** [struct ImageBox], Core/include/DCommon.h:323-326. *)
Record box := Box { bx : Z; by_ : Z; bz : Z; bref : Z; bw : Z; bh : Z; bd : Z }.

(** [ImageBox(width,height,depth)], DCommon.h:367-374. *)
Definition box_new (s : dims) : box := Box 0 0 0 0 (dw s) (dh s) (dd s).

(** [ImageBox::setReference(x,y,z)], DCommon.h:380-387. *)
Definition box_setRef_xyz (b : box) (x y z : Z) : box :=
  Box x y z (x + y * bw b + z * bw b * bh b) (bw b) (bh b) (bd b).

(** [ImageBox::setReference(IntPoint)], DCommon.h:393-397. *)
Definition box_setRef_pt (b : box) (x y z : Z) : box :=
  Box x y z (x + (y + z * bw b) * bh b) (bw b) (bh b) (bd b).

(** [ImageBox::setReference(off_t)], DCommon.h:402-410 (C++ division truncates). *)
Definition box_setRef_off (b : box) (off : Z) : box :=
  let x := Z.rem off (bw b) in
  let off1 := Z.quot (off - x) (bw b) in
  let y := Z.rem off1 (bh b) in
  let z := Z.quot (off1 - y) (bh b) in
  Box x y z off (bw b) (bh b) (bd b).

(** [ImageBox::shift(dx,dy,dz)], DCommon.h:431-437. *)
Definition box_shift_xyz (b : box) (dx dy dz : Z) : box :=
  let x := bx b + dx in let y := by_ b + dy in let z := bz b + dz in
  Box x y z (x + (y * bw b + z * bh b) * bw b) (bw b) (bh b) (bd b).

(** [ImageBox::shift(IntPoint)], DCommon.h:442-448. *)
Definition box_shift_pt (b : box) (dx dy dz : Z) : box :=
  let x := bx b + dx in let y := by_ b + dy in let z := bz b + dz in
  Box x y z (x + (y + z * bh b) * bw b) (bw b) (bh b) (bd b).

(** [ImageBox::inImage(x,y,z)], DCommon.h:467-471. *)
Definition box_inImage (b : box) (x y z : Z) : bool :=
  (x >=? 0) && (x <? bw b) && (y >=? 0) && (y <? bh b) && (z >=? 0) && (z <? bd b).

(** [ImageBox::getOffset(IntPoint)], DCommon.h:489-492. *)
Definition box_getOffset (b : box) (x y z : Z) : Z := x + bw b * (y + z * bh b).

(** [ImageBox::getCoords(off_t)], DCommon.h:499-508. *)
Definition box_getCoords (b : box) (off : Z) : Z * Z * Z :=
  let x := Z.rem off (bw b) in
  let off := Z.quot (off - x) (bw b) in
  let y := Z.rem off (bh b) in
  let z := Z.quot (off - y) (bh b) in
  (x, y, z).
