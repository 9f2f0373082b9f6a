(** Copy, crop, border, flips, rotation, translation and transposition.

    Models: Base/include/private/DImageTransform.hpp:84-790, DImageMatrix.hpp:46-160,
    DLineArith.hpp:98-114.

    The images are allocated.  Input and output are different images except where an in-place form
    is modelled explicitly; the functions that test [&imIn == &imOut] first clone the input, so their
    in-place form is the same function applied to (im, im).
    Not modelled: failure of allocation, viewers, [resize]/[scale] (830-1151). *)
From Verif Require Export Model.Loops.

(** One pixel of copyLine: read (x,y,z) of [imIn], write (x',y',z') of the output. *)
Definition move_px (conv : Z -> Z) (imIn : img) (so : dims) (x y z x' y' z' : Z) : option (Z * Z) :=
  option_bind (pix_at imIn x y z) (fun v =>
  option_bind (slice_access so x' y' z') (fun a => Some (a, conv v))).

(** [copy] with ranges, DImageTransform.hpp:83-132.  The subtractions are in [size_t] and cannot wrap
    after the assertions.  [conv] is the conversion to the output pixel type. *)
Definition copy_range (conv : Z -> Z) (sched : sched3) (imIn : img) (startX startY startZ sizeX sizeY sizeZ : Z)
  (imOut : img) (outStartX outStartY outStartZ : Z) : option (Z * img) :=
  if negb ((startX <? width imIn) && (startY <? height imIn) && (startZ <? depth imIn)) then Some (-100, imOut)
  else if negb ((outStartX <? width imOut) && (outStartY <? height imOut) && (outStartZ <? depth imOut))
  then Some (-100, imOut)
  else
    let realSx := Z.min (Z.min sizeX (to_size (width imIn - startX))) (to_size (width imOut - outStartX)) in
    let realSy := Z.min (Z.min sizeY (to_size (height imIn - startY))) (to_size (height imOut - outStartY)) in
    let realSz := Z.min (Z.min sizeZ (to_size (depth imIn - startZ))) (to_size (depth imOut - outStartZ)) in
    option_bind
      (scatter (fun '(x, y, z) => move_px conv imIn (sz imOut) (startX + x) (startY + y) (startZ + z)
                                    (outStartX + x) (outStartY + y) (outStartZ + z))
               (sched (grid realSx realSy realSz)) (pixs imOut))
      (fun px => Some (1, Img (sz imOut) px)).

(** [copy(imIn, imOut)] for images of different types, 216-231: same size copies all the pixels,
    otherwise the ranged copy over the whole input from the origin (141-160). *)
Definition copy_conv (conv : Z -> Z) (sched : sched3) (imIn imOut : img) : option (Z * img) :=
  if (width imIn =? width imOut) && (height imIn =? height imOut) && (depth imIn =? depth imOut)
  then Some (1, Img (sz imOut) (map conv (pixs imIn)))
  else copy_range conv sched imIn 0 0 0 (width imIn) (height imIn) (depth imIn) imOut 0 0 0.

(** [crop], 298-316 (in-place form 328-335: the input is cloned first). *)
Definition crop (junk : Z -> Z) (sched : sched3) (imIn : img) (startX startY startZ sizeX sizeY sizeZ : Z) (imOut : img)
  : option (Z * img) :=
  let realSx := Z.min sizeX (to_size (width imIn - startX)) in
  let realSy := Z.min sizeY (to_size (height imIn - startY)) in
  let realSz := Z.min sizeZ (to_size (depth imIn - startZ)) in
  copy_range (fun v => v) sched imIn startX startY startZ realSx realSy realSz
    (setSize junk imOut (Dims realSx realSy realSz)) 0 0 0.

(** [addBorder], 394-423; [getDimension() == 3] means depth > 1 (Core/include/DBaseImage.h:102-110).
    The return code of the inner [copy] is ignored. *)
Definition addBorder (junk : Z -> Z) (sched : sched3) (imIn : img) (bSize : Z) (imOut : img) (borderValue : Z)
  : option (Z * img) :=
  let s0 := width imIn in let s1 := height imIn in let s2 := depth imIn in
  let filled s := let im := setSize junk imOut s in Img (sz im) (map (fun _ => borderValue) (pixs im)) in
  option_bind
    (if s2 >? 1
     then copy_range (fun v => v) sched imIn 0 0 0 s0 s1 s2
            (filled (Dims (s0 + 2 * bSize) (s1 + 2 * bSize) (s2 + 2 * bSize))) bSize bSize bSize
     else copy_range (fun v => v) sched imIn 0 0 0 s0 s1 1
            (filled (Dims (s0 + 2 * bSize) (s1 + 2 * bSize) 1)) bSize bSize 0)
    (fun r => Some (1, snd r)).

(** ASSERT_SAME_SIZE: RES_ERR_BAD_SIZE is -98 (Core/include/DBaseImage.h:358-382, 430-438). *)
Definition same_size (a b : img) : bool :=
  (width a =? width b) && (height a =? height b) && (depth a =? depth b).

(** [FlipClassFunc::flipIt], 446-495; vertFlip 507, horizFlip 537. *)
Definition flipIt (sched : sched3) (vflip : bool) (imIn imOut : img) : option (Z * img) :=
  if negb (same_size imIn imOut) then Some (-98, imOut)
  else
    let w := width imIn in let h := height imIn in
    option_bind
      (scatter (fun '(x, y, z) =>
           if vflip then move_px (fun v => v) imIn (sz imOut) x y z x (h - 1 - y) z
           else move_px (fun v => v) imIn (sz imOut) (w - 1 - x) y z x y z)
         (sched (grid w h (depth imIn))) (pixs imOut))
      (fun px => Some (1, Img (sz imOut) px)).

(** [ImageRotateFunct::RotateX90], 582-657 ([Rotate] 574 reduces the count twice, C++ [%] truncates).
    The loops use raw pointers into the pixel arrays. *)
Definition rotateX90 (junk : Z -> Z) (sched : sched3) (imIn : img) (count : Z) (imOut : img) : option (Z * img) :=
  let angle := Z.rem (Z.rem count 4) 4 * 90 in
  let w := width imIn in let h := height imIn in let d := depth imIn in
  if angle =? 0 then Some (1, Img (sz imIn) (pixs imIn))
  else
    let out := setSize junk imOut (if (angle =? 90) || (angle =? 270) then Dims h w d else Dims w h d) in
    let loop (addr : Z -> Z -> Z) :=
      option_bind
        (scatter (fun '(i, j, k) =>
             option_bind (rd (pixs imIn) (k * w * h + (j * w + i))) (fun v => Some (k * w * h + addr i j, v)))
           (sched (grid w h d)) (pixs out))
        (fun px => Some (1, Img (sz out) px)) in
    if angle =? 90 then loop (fun i j => i * h + (w - 1 - j))
    else if angle =? 180 then loop (fun i j => (h - 1 - j) * w + (w - 1 - i))
    else if angle =? 270 then loop (fun i j => (w - 1 - i) * h + j)
    else Some (1, out).

(** Writing a block of cells; [None]: outside the array. *)
Definition blit {A} (l : list A) (a : Z) (b : list A) : option (list A) :=
  if (0 <=? a) && (a + Z.of_nat (length b) <=? Z.of_nat (length l))
  then Some (firstn (Z.to_nat a) l ++ b ++ skipn (Z.to_nat a + length b) l) else None.

(** [fillLine::fill(l, n, v)], DLineArith.hpp:89-93; [n] is a [size_t].  A count larger than the array is an
    access outside it. *)
Definition fill_cells (dst : list Z) (a n v : Z) : option (list Z) :=
  if n >? Z.of_nat (length dst) then None else blit dst a (map (fun _ => v) (zseq n)).

(** [copyLine], DLineArith.hpp:58-65, between two different arrays; [n] is a [size_t]. *)
Definition copy_cells (src dst : list Z) (a n b : Z) : option (list Z) :=
  option_bind (subarray src a n) (fun l => blit dst b l).

(** [shiftLine], DLineArith.hpp:97-115: the line of length [len] at [a] of [src] to [b] of [dst].
    [int dx] is converted to [size_t] in the sums. *)
Definition shiftLine (src dst : list Z) (a dx len b borderValue : Z) : option (list Z) :=
  if dx =? 0 then copy_cells src dst a len b
  else if dx >? 0 then
    option_bind (fill_cells dst b dx borderValue) (fun dst1 =>
    copy_cells src dst1 a (to_size (len - dx)) (b + dx))
  else
    option_bind (copy_cells src dst (a - dx) (to_size (len + dx)) b) (fun dst1 =>
    fill_cells dst1 (b + to_size (len + dx)) (- dx) borderValue).

(** [translate], DImageTransform.hpp:726-759, to a different image. *)
Definition translate (imIn : img) (dx dy dz : Z) (imOut : img) (borderValue : Z) : option (Z * img) :=
  if negb (same_size imIn imOut) then Some (-98, imOut)
  else
    let w := width imIn in let h := height imIn in let d := depth imIn in
    option_bind
      (fold_opt (fun px '(j, k) =>
         let z := k - dz in let y := j - dy in
         option_bind (slice_access (sz imOut) 0 j k) (fun b =>
         if (z <? 0) || (z >=? d) || (y <? 0) || (y >=? h)
         then fill_cells px b w borderValue
         else option_bind (slice_access (sz imIn) 0 y z) (fun a =>
              shiftLine (pixs imIn) px a dx w b borderValue)))
        (flat_map (fun k => map (fun j => (j, k)) (zseq h)) (zseq d)) (pixs imOut))
      (fun px => Some (1, Img (sz imOut) px)).

(** The same with imIn and imOut the same image: there is no clone, every read sees the cells
    already written (cells copied in increasing order). *)
Definition copy_cells_inplace (px : list Z) (a n b : Z) : option (list Z) :=
  if (n >? Z.of_nat (length px)) then None
  else fold_opt (fun px i => option_bind (rd px (a + i)) (wr px (b + i))) (zseq n) px.
Definition shiftLine_inplace (px : list Z) (a dx len b borderValue : Z) : option (list Z) :=
  if dx =? 0 then copy_cells_inplace px a len b
  else if dx >? 0 then
    option_bind (fill_cells px b dx borderValue) (fun px1 =>
    copy_cells_inplace px1 a (to_size (len - dx)) (b + dx))
  else
    option_bind (copy_cells_inplace px (a - dx) (to_size (len + dx)) b) (fun px1 =>
    fill_cells px1 (b + to_size (len + dx)) (- dx) borderValue).
Definition translate_inplace (im : img) (dx dy dz : Z) (borderValue : Z) : option (Z * img) :=
  let w := width im in let h := height im in let d := depth im in
  option_bind
    (fold_opt (fun px '(j, k) =>
       let z := k - dz in let y := j - dy in
       option_bind (slice_access (sz im) 0 j k) (fun b =>
       if (z <? 0) || (z >=? d) || (y <? 0) || (y >=? h)
       then fill_cells px b w borderValue
       else option_bind (slice_access (sz im) 0 y z) (fun a =>
            shiftLine_inplace px a dx w b borderValue)))
      (flat_map (fun k => map (fun j => (j, k)) (zseq h)) (zseq d)) (pixs im))
    (fun px => Some (1, Img (sz im) px)).

From Coq Require Import String.

(** [ImageTransposeFunc::setOrder], DImageMatrix.hpp:51-86. *)
Open Scope string_scope.
Definition setOrder (order : string) : option (nat * nat * nat) :=
  if String.eqb order "yxz" || String.eqb order "yx" then Some (1, 0, 2)%nat
  else if String.eqb order "xzy" then Some (0, 2, 1)%nat
  else if String.eqb order "yzx" then Some (1, 2, 0)%nat
  else if String.eqb order "zxy" then Some (2, 0, 1)%nat
  else if String.eqb order "zyx" then Some (2, 1, 0)%nat
  else None.

Definition pick (lut : nat) (x y z : Z) : Z := match lut with O => x | S O => y | _ => z end.

(** [ImageTransposeFunc::transpose], DImageMatrix.hpp:99-150.  The parallel region has no work
    sharing: every thread runs the whole loop, so the iterations executed are any interleaving of
    several copies of the iteration space; [sched] gives that list. *)
Definition matTranspose (junk : Z -> Z) (sched : sched3) (imIn : img) (order : string) (imOut : img)
  : option (Z * img) :=
  if String.eqb order "xyz" || String.eqb order "xy" then Some (1, imIn)
  else
    match setOrder (if String.eqb order "" then "yxz" else order) with
    | None => Some (-100, imOut)
    | Some (l0, l1, l2) =>
        let w := width imIn in let h := height imIn in let d := depth imIn in
        let out := setSize junk imOut (Dims (pick l0 w h d) (pick l1 w h d) (pick l2 w h d)) in
        option_bind
          (fold_opt (fun px '(x, y, z) =>
             option_bind (getPixel_xyz (sz imIn) (pixs imIn) x y z) (fun v =>
             option_bind (setPixel_xyz (sz out) px (pick l0 x y z) (pick l1 x y z) (pick l2 x y z) v)
               (fun r => Some (snd r))))
            (sched (grid w h d)) (pixs out))
          (fun px => Some (1, Img (sz out) px))
    end.
Close Scope string_scope.
