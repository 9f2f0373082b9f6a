(** Area openings by union-find.

    Models: Addons/PathOpening/include/FastAreaOpening/AreaOpeningUnionFind.hpp and
    Addons/PathOpening/include/DFastAreaOpening.h:90-119.  The input image is of type UINT8, the output image of type INT
    (lines 208 and 214 do not compile with other types).  The [int] operations are exact: the images have fewer than 2^31
    pixels.  Outer [None]: undefined behaviour; [Some None]: out of fuel. *)
From Verif Require Export Model.Geodesic.
Local Open Scope Z_scope.

(** PixelDownSort, AreaOpeningUnionFind.hpp:57-79: the histogram, 61-66, the offsets, 67-72, the placement, 73-77.  MAXGREYVAL is
    256, AreaOpeningPixelQueue.hpp:21.  The lines follow one another in memory. *)
Definition down_hist (im : list Z) : option (list Z) :=
  fold_opt (fun hist v => option_bind (rd hist v) (fun h => wr hist v (h + 1))) im (repeat 0 256).
Definition down_offsets (hist : list Z) : option (list Z * Z) :=
  fold_opt (fun '(idx, s) i => option_bind (wr idx i s) (fun idx => option_bind (rd hist i) (fun h => Some (idx, s + h)))) (rev (zseq 256)) (repeat 0 256, 0).
Definition down_place (im : list Z) (st : list Z * list Z) (current : Z) : option (list Z * list Z) :=
  let '(idx, sp) := st in
  option_bind (rd im current) (fun v =>
  option_bind (rd idx v) (fun k =>
  option_bind (wr sp k current) (fun sp =>
  option_bind (wr idx v (k + 1)) (fun idx => Some (idx, sp))))).
Definition pixelDownSort (im sp : list Z) : option (list Z) :=
  option_bind (down_hist im) (fun hist =>
  option_bind (down_offsets hist) (fun '(idx, _) =>
  option_bind (fold_opt (down_place im) (zseq (Z.of_nat (length im))) (idx, sp)) (fun '(_, sp) => Some sp))).

(** The macro Link1, 81-102.  The search of the root, 83-85. *)
Fixpoint find_root (fuel : nat) (opening : list Z) (root : Z) : option (option Z) :=
  match fuel with
  | O => Some None
  | S fuel' => option_bind (rd opening root) (fun v => if v >=? 0 then find_root fuel' opening v else Some (Some root))
  end.
(** The compression of the path, 96-101. *)
Fixpoint compress (fuel : nat) (opening : list Z) (root newroot r : Z) : option (option (list Z)) :=
  match fuel with
  | O => Some None
  | S fuel' =>
      if r =? root then Some (Some opening) else
      option_bind (rd opening r) (fun h =>
      option_bind (wr opening r newroot) (fun opening => compress fuel' opening root newroot h))
  end.
(** The link of the two roots, 86-95. *)
Definition link_root (lambda : Z) (opening : list Z) (pixel root : Z) : option (list Z * Z) :=
  if root =? pixel then Some (opening, root) else
  option_bind (rd opening root) (fun a =>
  if - a <? lambda then
    option_bind (rd opening pixel) (fun b =>
    option_bind (wr opening pixel (b + a)) (fun opening =>
    option_bind (wr opening root pixel) (fun opening => Some (opening, pixel))))
  else option_bind (wr opening pixel (- lambda)) (fun opening => Some (opening, root))).
Definition link1 (fuel : nat) (lambda : Z) (pixel : Z) (opening : list Z) (p : Z) : option (option (list Z)) :=
  fuel_bind (find_root fuel opening p) (fun root =>
  option_bind (link_root lambda opening pixel root) (fun '(opening, newroot) => compress fuel opening root newroot p)).

(** One test of GreyAreaOpening, 173-180: [ok] says whether the neighbour exists; [strict] is [<] instead of [<=]. *)
Definition try_link (fuel : nat) (lambda : Z) (im : list Z) (pixel gval : Z) (ok : bool) (neigh : Z) (strict : bool) (opening : list Z)
  : option (option (list Z)) :=
  if negb ok then Some (Some opening) else
  option_bind (rd im neigh) (fun v =>
  if (if strict then gval <? v else gval <=? v) then link1 fuel lambda pixel opening neigh else Some (Some opening)).
(** One turn of the first loop, 165-181. *)
Definition area_step (fuel : nat) (lambda width height : Z) (im opening : list Z) (pixel : Z) : option (option (list Z)) :=
  option_bind (rd im pixel) (fun gval =>
  option_bind (wr opening pixel (-1)) (fun opening =>
  let x := pixel mod width in let y := pixel / width in
  let try := try_link fuel lambda im pixel gval in
  fuel_bind (try (x - 1 >=? 0) (pixel - 1) false opening) (fun opening =>
  fuel_bind (try (x + 1 <? width) (pixel + 1) true opening) (fun opening =>
  fuel_bind (try (y - 1 >=? 0) (pixel - width) false opening) (fun opening =>
  try (y + 1 <? height) (pixel + width) true opening))))).
Fixpoint area_loop (fuel : nat) (lambda width height : Z) (im : list Z) (todo opening : list Z) : option (option (list Z)) :=
  match todo with
  | [] => Some (Some opening)
  | pixel :: todo' => fuel_bind (area_step fuel lambda width height im opening pixel) (fun opening => area_loop fuel lambda width height im todo' opening)
  end.
(** One turn of the second loop, 182-185. *)
Definition resolve (im opening : list Z) (p : Z) : option (list Z) :=
  option_bind (rd opening p) (fun v =>
  option_bind (if v <? 0 then rd im p else rd opening v) (fun u => wr opening p u)).
(** GreyAreaOpening, 153-187; [junk]: the contents of the array SortPixels when allocated. *)
Definition greyAreaOpening (fuel : nat) (junk : Z -> Z) (lambda width height : Z) (im opening : list Z) : option (option (list Z)) :=
  option_bind (pixelDownSort im (map junk (zseq (width * height)))) (fun sp =>
  fuel_bind (area_loop fuel lambda width height im sp opening) (fun opening =>
  option_bind (fold_opt (resolve im) (rev sp) opening) (fun opening => Some (Some opening)))).

(** ImAreaOpening_UnionFind, 189-230: the first slice only is read and written; imOut is filled with 0 before, 198. *)
Definition imAreaOpening_UnionFind (fuel : nat) (junk : Z -> Z) (imIn : img) (size : Z) (imOut : img) : option (option (Z * img)) :=
  if negb (same_size imIn imOut) then Some (Some (-98, imOut)) else
  let W := dw (sz imIn) in let H := dh (sz imIn) in
  let n := Z.to_nat (W * H) in
  let out := repeat 0 (length (pixs imOut)) in
  fuel_bind (greyAreaOpening fuel junk size W H (firstn n (pixs imIn)) (firstn n out)) (fun o =>
  Some (Some (1, Img (sz imOut) (o ++ skipn n out)))).

(** [invLine<int>], Base/include/private/DLineArith.hpp:116-123: [max - v - min] in signed 32 bit arithmetic. *)
Definition inv_int (v : Z) : option Z :=
  let a := 2 ^ 31 - 1 - v in
  if (a <? 2 ^ 31) && (a + 2 ^ 31 <? 2 ^ 31) then Some (a + 2 ^ 31) else None.
(** ImAreaClosing_UnionFind, DFastAreaOpening.h:106-119. *)
Definition imAreaClosing_UnionFind (fuel : nat) (junk : Z -> Z) (imIn : img) (size : Z) (imOut : img) : option (option (Z * img)) :=
  if negb (same_size imIn imOut) then Some (Some (-98, imOut)) else
  fuel_bind (imAreaOpening_UnionFind fuel junk (pw1 (px_inv UINT8) imIn) size imOut) (fun '(r, out) =>
  if negb (r =? 1) then Some (Some (r, out)) else
  option_bind (all_some (map inv_int (pixs out))) (fun px => Some (Some (1, Img (sz out) px)))).
