(** Drawing on images: Base/include/DImageDraw.h:61-196 (bresenhamPoints) and Base/include/private/DImageDraw.hpp.

    The images are allocated.  [None] is undefined behaviour: an access outside the line table or the pixels, or an
    [int] that overflows.  A position to the right of the end of a line is the start of the next one, as in memory.
    Not modelled: drawText (FreeType), the event sent at the end and the viewers. *)
From Verif Require Export Model.Transform Model.Measures.

(** Arithmetic on [int]: overflow is undefined. *)
Definition int_ck (z : Z) : option Z := if (- 2 ^ 31 <=? z) && (z <? 2 ^ 31) then Some z else None.

(** *** bresenhamPoints *)

(** The four loops of DImageDraw.h:113-190 differ by the increments of F ([keep], [move]) and by the moves of the point:
    ([mx], [my]) when F > 0 and ([ax], [ay]) at each turn.  [clip]: xMax is not 0 and the point is outside. *)
Definition bres_state := (Z * Z * Z * list (Z * Z))%type.   (* F, x, y, points *)
Definition bres_step (clip : Z -> Z -> bool) (keep move mx my ax ay : Z) (st : bres_state) : option bres_state :=
  let '(F, x, y, points) := st in
  let points := if clip x y then points else points ++ [(x, y)] in
  option_bind (int_ck (if F <=? 0 then F + keep else F + move)) (fun F' =>
  option_bind (int_ck (if F <=? 0 then x + ax else x + mx + ax)) (fun x' =>
  option_bind (int_ck (if F <=? 0 then y + ay else y + my + ay)) (fun y' =>
  Some (F', x', y', points)))).
Definition bres_loop (clip : Z -> Z -> bool) (n keep move mx my ax ay F x y : Z) : option (list (Z * Z)) :=
  option_map snd (fold_opt (fun st _ => bres_step clip keep move mx my ax ay st) (zseq n) (F, x, y, [])).

(** DImageDraw.h:119, 139, 161, 181. *)
Definition bres_clip (xMax yMax x y : Z) : bool :=
  negb ((xMax =? 0) || ((x >=? 0) && (x <? xMax) && (y >=? 0) && (y <? yMax))).

(** Lines 66-104: the two simple cases; lines 97-104 and 86-93: only the constant coordinate is compared with its limit. *)
Definition bres_vertical (x ya yb xMax : Z) : list (Z * Z) :=
  let '(y1, y2) := if ya >? yb then (yb, ya) else (ya, yb) in
  if (xMax =? 0) || ((x >=? 0) && (x <? xMax)) then map (fun y => (x, y)) (zrange y1 (y2 - y1 + 1)) else [].
Definition bres_horizontal (xa xb y yMax : Z) : list (Z * Z) :=
  if (yMax =? 0) || ((y >=? 0) && (y <? yMax)) then map (fun x => (x, y)) (zrange xa (xb - xa + 1)) else [].

(** Lines 61-196. *)
Definition bresenhamPoints (p1x p1y p2x p2y xMax yMax : Z) : option (list (Z * Z)) :=
  let swapped := p1x >? p2x in
  let '(p1x, p1y, p2x, p2y) := if swapped then (p2x, p2y, p1x, p1y) else (p1x, p1y, p2x, p2y) in
  if p1x =? p2x then option_bind (int_ck (Z.max p1y p2y + 1)) (fun _ => Some (bres_vertical p1x p1y p2y xMax))
  else if p1y =? p2y then option_bind (int_ck (p2x + 1)) (fun _ => Some (bres_horizontal p1x p2x p1y yMax))
  else
    option_bind (int_ck (p2y - p1y)) (fun dy =>
    option_bind (int_ck (p2x - p1x)) (fun dx =>
    option_bind (int_ck (2 * dx)) (fun dx2 =>
    option_bind (int_ck (2 * dy)) (fun dy2 =>
    option_bind (int_ck (dy2 - dx2)) (fun dy2_minus_dx2 =>
    option_bind (int_ck (dy2 + dx2)) (fun dy2_plus_dx2 =>
    let clip := bres_clip xMax yMax in
    option_map (fun points => if swapped then rev points else points)
      (if dy >=? 0 then
         if dy <=? dx
         then option_bind (int_ck (dy2 - dx)) (fun F => bres_loop clip (dx + 1) dy2 dy2_minus_dx2 0 1 1 0 F p1x p1y)
         else option_bind (int_ck (dx2 - dy)) (fun F => bres_loop clip (dy + 1) dx2 (- dy2_minus_dx2) 1 0 0 1 F p1x p1y)
       else
         if dx >=? - dy
         then option_bind (int_ck (- dy2 - dx)) (fun F => bres_loop clip (dx + 1) (- dy2) (- dy2_plus_dx2) 0 (-1) 1 0 F p1x p1y)
         else option_bind (int_ck (dx2 + dy)) (fun F => bres_loop clip (- dy + 1) dx2 dy2_plus_dx2 1 0 0 (-1) F p1x p1y)))))))).

(** *** Writing points *)

(** [slices[z][y][x] = value]. *)
Definition paint_body (s : dims) (value : Z) (p : Z * Z * Z) : option (Z * Z) :=
  let '(x, y, z) := p in option_map (fun a => (a, value)) (slice_access s x y z).
Definition paint (value : Z) (im : img) (ps : list (Z * Z * Z)) : option img :=
  option_map (Img (sz im)) (scatter (paint_body (sz im) value) ps (pixs im)).

(** [fillLine(slices[z][y] + x0, n, value)] (DLineArith.hpp; the split of the line is the subject of C46_value). *)
Definition fill_from (value : Z) (im : img) (x0 y z n : Z) : option img :=
  option_bind (slice_access (sz im) x0 y z) (fun a =>
  option_map (Img (sz im)) (fold_opt (fun px i => wr px i value) (zrange a n) (pixs im))).

(** drawLine, DImageDraw.hpp:57-84: slice 0. *)
Definition drawLine (im : img) (x0 y0 x1 y1 value : Z) : option (Z * img) :=
  let imW := to_int (width im) in let imH := to_int (height im) in
  option_bind
    (if (x0 <? 0) || (x0 >=? imW) || (y0 <? 0) || (y0 >=? imH) || (x1 <? 0) || (x1 >=? imW) || (y1 <? 0) || (y1 >=? imH)
     then bresenhamPoints x0 y0 x1 y1 imW imH
     else bresenhamPoints x0 y0 x1 y1 0 0) (fun ps =>
  option_map (fun im => (1, im)) (paint value im (map (fun p => (fst p, snd p, 0)) ps))).

(** drawRectangle, DImageDraw.hpp:116-155.  [width] and [height] are size_t. *)
Definition drawRectangle (im : img) (x0 y0 w h value : Z) (fill : bool) (zSlice : Z) : option (Z * img) :=
  let imW := width im in let imH := height im in
  if negb (zSlice <? depth im) then Some (-100, im)
  else
    let x1 := to_size (to_size x0 + w - 1) in
    let y1 := to_size (to_size y0 + h - 1) in
    let x1 := if x1 <? imW then x1 else to_size (imW - 1) in
    let y1 := if y1 <? imH then y1 else to_size (imH - 1) in
    let x0 := if x0 >=? 0 then x0 else 0 in
    let y0 := if y0 >=? 0 then y0 else 0 in
    option_map (fun im => (1, im))
      (if fill then fold_opt (fun im j => fill_from value im x0 j zSlice w) (zrange y0 (y1 - y0 + 1)) im
       else
         option_bind (fill_from value im x0 y0 zSlice w) (fun im =>
         option_bind (fill_from value im x0 y1 zSlice w) (fun im =>
         option_bind (int_ck (y0 + 1)) (fun _ =>
         paint value im (flat_map (fun j => [(x0, j, zSlice); (x1, j, zSlice)]) (zrange (y0 + 1) (y1 - y0))))))).

(** drawBox, DImageDraw.hpp:391-411.  The ASSERTs return RES_ERR; what has been drawn stays. *)
Fixpoint draw_slices (im : img) (x0 y0 w h value : Z) (todo : list (bool * Z)) : option (Z * img) :=
  match todo with
  | [] => Some (1, im)
  | (fill, z) :: r =>
      option_bind (drawRectangle im x0 y0 w h value fill z) (fun p =>
      if fst p =? 1 then draw_slices (snd p) x0 y0 w h value r else Some (-100, snd p))
  end.
Definition drawBox (im : img) (x0 y0 z0 w h d value : Z) (fill : bool) : option (Z * img) :=
  let last := to_size (to_size (z0 + d) - 1) in
  draw_slices im (to_int x0) (to_int y0) w h value
    ((true, z0) :: map (fun z => (fill, z)) (zrange (z0 + 1) (last - (z0 + 1))) ++ [(true, last)]).

(** drawSphere, DImageDraw.hpp:289-328, and drawDisc, 340-374: [sq] are the squares, [int] each. *)
Definition sum_sq (l : list Z) : option Z :=
  fold_opt (fun s a => option_bind (int_ck a) (fun a => option_bind (int_ck (a * a)) (fun q => int_ck (s + q)))) l 0.
Definition draw_round (value : Z) (center : Z * Z * Z -> list Z) (r2 : Z) (im : img) (ps : list (Z * Z * Z)) : option img :=
  fold_opt (fun im p => option_bind (sum_sq (center p)) (fun q => if q <=? r2 then paint value im [p] else Some im)) ps im.
Definition drawSphere (im : img) (x0 y0 z0 radius value : Z) : option (Z * img) :=
  option_bind (all_some (map int_ck [x0 - radius; y0 - radius; z0 - radius; x0 + radius; y0 + radius; z0 + radius; radius * radius])) (fun _ =>
  let x1 := Z.max (x0 - radius) 0 in let x2 := Z.min (x0 + radius) (to_int (width im) - 1) in
  let y1 := Z.max (y0 - radius) 0 in let y2 := Z.min (y0 + radius) (to_int (height im) - 1) in
  let z1 := Z.max (z0 - radius) 0 in let z2 := Z.min (z0 + radius) (to_int (depth im) - 1) in
  option_map (fun im => (1, im))
    (draw_round value (fun '(x, y, z) => [x - x0; y - y0; z - z0]) (radius * radius) im
       (flat_map (fun z => flat_map (fun y => map (fun x => (x, y, z)) (zrange x1 (x2 - x1 + 1))) (zrange y1 (y2 - y1 + 1))) (zrange z1 (z2 - z1 + 1))))).
Definition drawDisc (im : img) (x0 y0 zSlice radius value : Z) : option (Z * img) :=
  if negb (zSlice <? depth im) then Some (-100, im)
  else
  option_bind (all_some (map int_ck [x0 - radius; y0 - radius; x0 + radius; y0 + radius; radius * radius])) (fun _ =>
  let x1 := Z.max (x0 - radius) 0 in let x2 := Z.min (x0 + radius) (to_int (width im) - 1) in
  let y1 := Z.max (y0 - radius) 0 in let y2 := Z.min (y0 + radius) (to_int (height im) - 1) in
  option_map (fun im => (1, im))
    (draw_round value (fun '(x, y, z) => [x - x0; y - y0]) (radius * radius) im
       (flat_map (fun y => map (fun x => (x, y, zSlice)) (zrange x1 (x2 - x1 + 1))) (zrange y1 (y2 - y1 + 1))))).

(** drawCircle, DImageDraw.hpp:233-277.  The eight symmetric points, those outside left out. *)
Definition octants (x0 y0 x y : Z) : list (Z * Z) :=
  [(x0 + x, y0 + y); (x0 + x, y0 - y); (x0 - x, y0 + y); (x0 - x, y0 - y);
   (x0 + y, y0 + x); (x0 + y, y0 - x); (x0 - y, y0 + x); (x0 - y, y0 - x)].
Definition in_frame (imW imH : Z) (p : Z * Z) : bool :=
  (fst p >=? 0) && (fst p <=? imW - 1) && (snd p >=? 0) && (snd p <=? imH - 1).
Fixpoint circle_loop (fuel : nat) (value x0 y0 zSlice : Z) (im : img) (d x y : Z) : option (option img) :=
  match fuel with
  | O => None                                                                         (* out of fuel *)
  | S fuel =>
      let imW := to_int (width im) in let imH := to_int (height im) in
      let ps := octants x0 y0 x y in
      match option_bind (all_some (map (fun p => option_bind (int_ck (fst p)) (fun _ => int_ck (snd p))) ps)) (fun _ =>
            option_bind (paint value im (map (fun p => (fst p, snd p, zSlice)) (filter (in_frame imW imH) ps))) (fun im =>
            option_bind (if d <? 0 then option_bind (int_ck (4 * x)) (fun a => option_bind (int_ck (d + a)) (fun b => int_ck (b + 6)))
                         else option_bind (int_ck (x - y)) (fun c => option_bind (int_ck (4 * c)) (fun a =>
                              option_bind (int_ck (d + a)) (fun b => int_ck (b + 10))))) (fun d' =>
            Some (im, d')))) with
      | None => Some None
      | Some (im, d') =>
          let y' := if d <? 0 then y else y - 1 in
          let x' := x + 1 in
          if x' <=? y' then circle_loop fuel value x0 y0 zSlice im d' x' y' else Some (Some im)
      end
  end.
Definition drawCircle (fuel : nat) (im : img) (x0 y0 radius value zSlice : Z) : option (option (Z * img)) :=
  if negb (zSlice <? depth im) then Some (Some (-100, im))
  else
    match option_bind (int_ck (radius * 4)) (fun a => int_ck (5 - a)) with
    | None => Some None
    | Some a => option_map (option_map (fun im => (1, im))) (circle_loop fuel value x0 y0 zSlice im (Z.quot a 4) 0 radius)
    end.

(** *** copyPattern, DImageDraw.hpp:514-594 *)

(** [copyLine(from, n, to)] between two arrays and within one. *)
Definition copy_to (src : list Z) (from n : Z) (px : list Z) (to : Z) : option (list Z) :=
  fold_opt (fun px k => option_bind (rd src (from + k)) (wr px (to + k))) (zseq n) px.
Definition copy_within (px : list Z) (from n to : Z) : option (list Z) :=
  fold_opt (fun px k => option_bind (rd px (from + k)) (wr px (to + k))) (zseq n) px.

(** [imIn] is not [imOut].  [sched k]: the order of the lines in the k-th parallel loop; each loop ends with a barrier.
    [int(ceil(double(a) / b))] is exact for sizes below 2^31. *)
Definition copyPattern (sched : Z -> list Z -> list Z) (imIn : img) (x0 y0 w h : Z) (imOut : img) (nbr_x nbr_y : Z)
  : option (Z * img) :=
  let so := sz imOut in
  if (w =? 0) || (h =? 0) then None
  else
    let nX := Z.min ((width imOut + w - 1) / w) nbr_x in
    let xPad := width imOut mod w in
    let nXfull := if xPad =? 0 then nX else nX - 1 in
    let nY := Z.min ((height imOut + h - 1) / h) nbr_y in
    let yPad := height imOut mod h in
    let nYfull := if yPad =? 0 then nY else nY - 1 in
    let cpLen := to_size (nXfull * w + xPad) in
    option_bind (fold_opt (fun px j =>
        option_bind (slice_access (sz imIn) x0 (y0 + j) 0) (fun lineIn =>
        option_bind (slice_access so 0 j 0) (fun lineOut =>
        option_bind (fold_opt (fun px i => copy_to (pixs imIn) lineIn w px (lineOut + i * w)) (zseq nXfull) px) (fun px =>
        copy_to (pixs imIn) lineIn xPad px (lineOut + Z.max 0 nXfull * w))))) (sched 0 (zseq h)) (pixs imOut)) (fun px =>
    let copy_row n px j :=
      option_bind (slice_access so 0 j 0) (fun lineIn =>
      option_bind (slice_access so 0 (n * h + j) 0) (fun lineOut =>
      copy_within px lineIn cpLen lineOut)) in
    option_bind (fold_opt (fun px n => fold_opt (copy_row n) (sched n (zseq h)) px) (zrange 1 (nYfull - 1)) px) (fun px =>
    option_bind (fold_opt (fun px n => fold_opt (copy_row n) (sched n (zseq yPad)) px) (zrange nYfull (nY - nYfull)) px) (fun px =>
    Some (1, Img so px)))).
