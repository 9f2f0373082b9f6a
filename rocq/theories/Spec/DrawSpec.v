(** What drawing means: independent of the algorithms. *)
From Verif Require Export Spec.ImageSpec.

(** [im'] is [im] with the pixels of the shape [S] that lie in the image set to [v], and nothing else changed. *)
Definition painted (v : Z) (S : Z -> Z -> Z -> Prop) (im im' : img) : Prop :=
  sz im' = sz im /\ wf_img im' /\
  forall x y z o o', pixel_is im x y z o -> pixel_is im' x y z o' -> (S x y z /\ o' = v) \/ (~ S x y z /\ o' = o).

(** Rectangles and boxes. *)
Definition rect (x0 y0 w h z0 : Z) (x y z : Z) : Prop := x0 <= x < x0 + w /\ y0 <= y < y0 + h /\ z = z0.
Definition outline (x0 y0 w h z0 : Z) (x y z : Z) : Prop :=
  rect x0 y0 w h z0 x y z /\ (x = x0 \/ x = x0 + w - 1 \/ y = y0 \/ y = y0 + h - 1).
Definition box3 (x0 y0 z0 w h d : Z) (x y z : Z) : Prop := x0 <= x < x0 + w /\ y0 <= y < y0 + h /\ z0 <= z < z0 + d.
Definition box_faces (x0 y0 z0 w h d : Z) (x y z : Z) : Prop :=
  box3 x0 y0 z0 w h d x y z /\
  (x = x0 \/ x = x0 + w - 1 \/ y = y0 \/ y = y0 + h - 1 \/ z = z0 \/ z = z0 + d - 1).

(** Discs and balls, by the Euclidean distance to the centre. *)
Definition disc (x0 y0 z0 r : Z) (x y z : Z) : Prop := 0 <= r /\ (x - x0) ^ 2 + (y - y0) ^ 2 <= r ^ 2 /\ z = z0.
Definition ball (x0 y0 z0 r : Z) (x y z : Z) : Prop := 0 <= r /\ (x - x0) ^ 2 + (y - y0) ^ 2 + (z - z0) ^ 2 <= r ^ 2.

(** The digital segment from (xl, yl) to (xr, yr), with xl <= xr: in each column (each row when it is steep) the pixel at the
    least distance from the real segment, and of two pixels at the same distance, one half, the nearer to the first end. *)
Definition segment_from (xl yl xr yr x y : Z) : Prop :=
  let dx := xr - xl in
  let dy := Z.abs (yr - yl) in
  let i := x - xl in
  let j := if yl <=? yr then y - yl else yl - y in
  (x = xl /\ y = yl) \/
  (if dy <=? dx then 0 <= i <= dx /\ - dx < 2 * (dy * i - dx * j) <= dx
   else 0 <= j <= dy /\ - dy < 2 * (dx * j - dy * i) <= dy).
Definition segment (x0 y0 x1 y1 x y : Z) : Prop :=
  if x0 <=? x1 then segment_from x0 y0 x1 y1 x y else segment_from x1 y1 x0 y0 x y.

(** A path: consecutive points are neighbours (8 neighbours). *)
Fixpoint chain (l : list (Z * Z)) : Prop :=
  match l with
  | a :: ((b :: _) as r) => Z.abs (fst a - fst b) <= 1 /\ Z.abs (snd a - snd b) <= 1 /\ a <> b /\ chain r
  | _ => True
  end.

(** Coordinates for which no [int] of the drawing functions overflows. *)
Definition small_int (z : Z) : Prop := - 2 ^ 28 < z < 2 ^ 28.

(** The lines of which no part escapes the clipping. *)
Definition line_clipped (w h x0 y0 x1 y1 : Z) : Prop :=
  (x0 <> x1 /\ y0 <> y1) \/
  (x0 = x1 /\ (~ 0 <= x0 < w \/ (0 <= y0 < h /\ 0 <= y1 < h))) \/
  (x0 <> x1 /\ y0 = y1 /\ (~ 0 <= y0 < h \/ (0 <= x0 < w /\ 0 <= x1 < w))).

(** From (ax, ay) to (bx, by), neighbour to neighbour. *)
Definition walk (a b : Z * Z) (l : list (Z * Z)) : Prop := chain l /\ hd_error l = Some a /\ hd_error (rev l) = Some b.

(** The eight points symmetric of (x0 + i, y0 + j). *)
Definition mirrored (x0 y0 i j x y : Z) : Prop :=
  (Z.abs (x - x0) = i /\ Z.abs (y - y0) = j) \/ (Z.abs (x - x0) = j /\ Z.abs (y - y0) = i).

(** An arc in the octant 0 <= i <= j, from (x, y) to (X, Y X) next to the diagonal: in each column one pixel, at most one
    lower than in the column before, with r^2 - 3r/2 <= i^2 + j^2 <= r^2 + r/2. *)
Definition arc (r x y X : Z) (Y : Z -> Z) : Prop :=
  x <= X /\ Y x = y /\ (forall i, x <= i < X -> Y i - 1 <= Y (i + 1) <= Y i) /\ X <= Y X <= X + 1 /\
  (forall i, x <= i <= X -> 2 * r * r - 3 * r <= 2 * (i * i + Y i * Y i) <= 2 * r * r + r).

(** A tile of [imIn] repeated over the first slice of the output. *)
Definition tiled (imIn : img) (x0 y0 w h : Z) (imOut imOut' : img) : Prop :=
  sz imOut' = sz imOut /\ wf_img imOut' /\
  forall x y z o, pixel_is imOut' x y z o ->
    (z = 0 /\ pixel_is imIn (x0 + x mod w) (y0 + y mod h) 0 o) \/ (z <> 0 /\ pixel_is imOut x y z o).
