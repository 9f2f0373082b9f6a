(** Values along a line: [profile], Base/include/private/DMeasures.hpp:622-647. *)
From Verif Require Export Model.Draw.

(** The ends [x0], [y0], [x1], [y1] and the slice [z] are [size_t]; bresenhamPoints takes them, and the size of the image, as
    [int]s (636, 639).  [None]: access outside an array, be it that of the slices (641), of the lines or of the pixels (645).
    The image is allocated. *)
Definition profile (im : img) (x0 y0 x1 y1 z : Z) : option (list Z) :=
  let imW := width im in let imH := height im in
  option_bind
    (if (x0 >=? imW) || (y0 >=? imH) || (x1 >=? imW) || (y1 >=? imH)
     then bresenhamPoints (to_int x0) (to_int y0) (to_int x1) (to_int y1) (to_int imW) (to_int imH)
     else bresenhamPoints (to_int x0) (to_int y0) (to_int x1) (to_int y1) 0 0) (fun ps =>
  option_bind (rd (restruct_slices (sz im)) z) (fun _ =>
  all_some (map (fun p => option_bind (slice_access (sz im) (fst p) (snd p) z) (rd (pixs im))) ps))).
