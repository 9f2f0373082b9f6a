(** Bit arrays, bit images and the line functions on them:
    NSTypes/Bit/include/DBitArray.h, NSTypes/Bit/src/DBitArray.cpp, NSTypes/Bit/src/DImage_Bit.cpp and
    NSTypes/Bit/include/DLineArith_Bit.h, for the 64-bit Linux types ([size_t] of 64 bits, [UINT] and
    [int] of 32 bits).

    The memory is one list of 64-bit words; a bit array holds the offset of its [intArray] in it, so
    that arrays, lines and images may share words.  [None] is undefined behaviour: an access outside
    the memory, a division by zero or a shift by the width of the word or more. *)
From Verif Require Export Model.Prelude.
From Verif Require Export Model.Measures.

(** Conversion to [UINT] (Core/include/DTypes.h): 32 bits, modulo 2^32. *)
Definition uint (z : Z) : Z := z mod 2 ^ 32.

(** [~w] on a 64-bit word. *)
Definition not64 (w : Z) : Z := Z.lnot w mod 2 ^ 64.

(** [w << n] and [w >> n] on a 64-bit word: undefined unless 0 <= n < 64. *)
Definition shl64 (w n : Z) : option Z :=
  if (0 <=? n) && (n <? 64) then Some (Z.shiftl w n mod 2 ^ 64) else None.
Definition shr64 (w n : Z) : option Z :=
  if (0 <=? n) && (n <? 64) then Some (Z.shiftr w n) else None.

(** DBitArray.h:52-53 and 147-150, class BitArray: [intArray] (its offset in the memory), [index],
    [bitWidth], [height]; [intWidth] is INT_SIZE(bitWidth), DBitArray.cpp:73-78. *)
Record bitarr := BA { ba_int : Z; ba_index : Z; ba_width : Z; ba_height : Z }.

(** DBitArray.h:56, INT_TYPE_SIZE. *)
Definition word_bits : Z := 64.

(** DBitArray.h:57-58, INT_TYPE_MIN and INT_TYPE_MAX, selected by the Boolean as in
    DLineArith_Bit.h:81, 156 and 187. *)
Definition word_of (b : bool) : Z := if b then 2 ^ 64 - 1 else 0.

(** DBitArray.h:59, INT_SIZE: [(bitCount-1)/INT_TYPE_SIZE + 1] with bitCount a UINT. *)
Definition INT_SIZE (n : Z) : Z := uint (uint (uint n - 1) / word_bits + 1).

Definition intWidth (a : bitarr) : Z := INT_SIZE (ba_width a).

(** DBitArray.h:79, getBitPadX. *)
Definition getBitPadX (a : bitarr) : Z := uint (to_size (intWidth a * word_bits - ba_width a)).

(** DBitArray.h:99-105 and 110-115: the word and the bit that hold the value [ind].  [Y*getBitPadX()]
    and [Y*bitWidth] are UINT products; the quotients are stored in [int]. *)
Definition bit_place (a : bitarr) (ind : Z) : option (Z * Z) :=
  if ba_width a =? 0 then None
  else
    let Y := to_int (uint ind / ba_width a) in
    let X := to_int (uint (uint ind + uint (Y * getBitPadX a)) / word_bits) in
    let x := uint (uint ind - uint (Y * ba_width a)) mod word_bits in
    Some (X, x).

(** DBitArray.h:99-105, getValue(ind). *)
Definition getValue (m : list Z) (a : bitarr) (ind : Z) : option bool :=
  match bit_place a ind with
  | None => None
  | Some (X, x) => option_map (fun w => negb (Z.land w (Z.shiftl 1 x) =? 0)) (rd m (ba_int a + X))
  end.

(** DBitArray.h:110-118, setValue(ind, val). *)
Definition setValue (m : list Z) (a : bitarr) (ind : Z) (v : bool) : option (list Z) :=
  match bit_place a ind with
  | None => None
  | Some (X, x) =>
      match rd m (ba_int a + X) with
      | None => None
      | Some w =>
          wr m (ba_int a + X)
             (if v then Z.lor w (Z.shiftl 1 x) else Z.land w (not64 (Z.shiftl 1 x)))
      end
  end.

(** DBitArray.cpp:81-88, the left-value [a[i]]: the array moved by [i]; DBitArray.h:154-159,
    [operator +] is the same. *)
Definition ba_at (a : bitarr) (i : Z) : bitarr :=
  BA (ba_int a) (uint (ba_index a + i)) (ba_width a) (ba_height a).

(** DBitArray.h:120, the conversion to bool, and 132-136, the assignment of a bool. *)
Definition ba_get (m : list Z) (a : bitarr) : option bool := getValue m a (ba_index a).
Definition ba_set (m : list Z) (a : bitarr) (v : bool) : option (list Z) := setValue m a (ba_index a) v.

(** DBitArray.cpp:90-93, the right-value [a[i]] of a constant array. *)
Definition ba_const_at (m : list Z) (a : bitarr) (i : Z) : option bool := getValue m a (uint i).

(** DBitArray.cpp:59-66, the constructor from an array of bool: [m] is the memory with the words just
    allocated, at offset [p], whose content is whatever the allocator left there. *)
Definition ba_of_bools (m : list Z) (p : Z) (arr : list bool) (w h : Z) : option (list Z) :=
  fold_opt
    (fun m i => match rd arr i with Some v => setValue m (BA p 0 w h) i v | None => None end)
    (zseq w) m.

(** *** Bit images (NSTypes/Bit/src/DImage_Bit.cpp) *)

(** DImage_Bit.cpp:97-112, allocate: the array of all the pixels, at offset [p]. *)
Definition bit_pixels (p w h d : Z) : bitarr := BA p 0 w (uint (h * d)).

(** DImage_Bit.cpp:65-94, restruct: line [j] of slice [k]. *)
Definition bit_line (p w h d k j : Z) : bitarr :=
  let iw := intWidth (bit_pixels p w h d) in
  let perSlice := uint (iw * h) in
  BA (p + uint (uint (k * perSlice) + uint (j * iw))) 0 w 1.

(** Core/include/private/DImage.hpp:136-140, getPixel(offset) (const: the right-value [pixels[offset]]);
    the offsets that ASSERT rejects are excluded by the theorems. *)
Definition bit_getPixel (m : list Z) (p w h d off : Z) : option bool :=
  ba_const_at m (bit_pixels p w h d) off.

(** Core/include/private/DImage.hpp:148-155, setPixel(x, y, z, value): the left-value of [pixels]. *)
Definition bit_setPixel3 (m : list Z) (p w h d x y z : Z) (v : bool) : option (list Z) :=
  ba_set m (ba_at (bit_pixels p w h d) (uint (z * w * h + y * w + x))) v.

(** DImage_Bit.cpp:147-151, setPixel(offset, value): [lines[offset/width][offset%width] = value].
    The lines are numbered slice after slice. *)
Definition bit_setPixel (m : list Z) (p w h d off : Z) (v : bool) : option (list Z) :=
  if (w =? 0) || (h =? 0) then None
  else
    let l := off / w in
    if (0 <=? l) && (l <? h * d)
    then ba_set m (ba_at (bit_line p w h d (l / h) (l mod h)) (uint (off mod w))) v
    else None.

(** *** Line functions (NSTypes/Bit/include/DLineArith_Bit.h) *)

(** The loop [for (i=0;i<INT_SIZE(size);i++) lOut.intArray[i] = f(...)] of every functor below. *)
Definition word_loop1 (f : Z -> Z) (m : list Z) (l1 : bitarr) (size : Z) (lo : bitarr) : option (list Z) :=
  fold_opt
    (fun m i => match rd m (ba_int l1 + i) with
                | Some a => wr m (ba_int lo + i) (f a)
                | None => None
                end) (zseq (INT_SIZE size)) m.

Definition word_loop2 (f : Z -> Z -> Z) (m : list Z) (l1 l2 : bitarr) (size : Z) (lo : bitarr)
  : option (list Z) :=
  fold_opt
    (fun m i => match rd m (ba_int l1 + i), rd m (ba_int l2 + i) with
                | Some a, Some b => wr m (ba_int lo + i) (f a b)
                | _, _ => None
                end) (zseq (INT_SIZE size)) m.

Definition word_loop3 (f : Z -> Z -> Z -> Z) (m : list Z) (l1 l2 l3 : bitarr) (size : Z) (lo : bitarr)
  : option (list Z) :=
  fold_opt
    (fun m i => match rd m (ba_int l1 + i), rd m (ba_int l2 + i), rd m (ba_int l3 + i) with
                | Some a, Some b, Some c => wr m (ba_int lo + i) (f a b c)
                | _, _, _ => None
                end) (zseq (INT_SIZE size)) m.

(** DLineArith_Bit.h:73-85, fillLine<Bit> with a value. *)
Definition fillLine_bit (m : list Z) (l : bitarr) (size : Z) (v : bool) : option (list Z) :=
  fold_opt (fun m i => wr m (ba_int l + i) (word_of v)) (zseq (INT_SIZE size)) m.

(** DLineArith_Bit.h:225-232, invLine<Bit>. *)
Definition invLine_bit := word_loop1 not64.

(** The functors with two input lines, DLineArith_Bit.h:235-404. *)
Inductive bit_functor :=
| bAdd | bAddNoSat | bSub | bSubNoSat | bSup | bInf | bGrt | bGrtOrEqu | bLow | bLowOrEqu | bEqu | bDiff
| bMul | bMulNoSat | bDiv | bLogicAnd | bLogicOr.

Definition bit_word (f : bit_functor) (a b : Z) : Z :=
  match f with
  | bAdd => Z.lor a b                        (* 235-242 *)
  | bAddNoSat => Z.lxor a b                  (* 245-252 *)
  | bSub => Z.land a (not64 b)               (* 255-262 *)
  | bSubNoSat => Z.lxor a b                  (* 265-272 *)
  | bSup => Z.lor a b                        (* 275-283 *)
  | bInf => Z.land a b                       (* 286-293 *)
  | bGrt => Z.land a (not64 b)               (* 296-303 *)
  | bGrtOrEqu => Z.lor a (not64 b)           (* 306-313 *)
  | bLow => Z.land (not64 a) b               (* 316-323 *)
  | bLowOrEqu => Z.lor (not64 a) b           (* 326-333 *)
  | bEqu => not64 (Z.lxor a b)               (* 336-344 *)
  | bDiff => Z.lxor a b                      (* 347-354 *)
  | bMul => Z.land a b                       (* 357-364 *)
  | bMulNoSat => Z.land a b                  (* 367-374 *)
  | bDiv => Z.lor a (not64 b)                (* 377-384 *)
  | bLogicAnd => Z.land a b                  (* 387-394 *)
  | bLogicOr => Z.lor a b                    (* 397-404 *)
  end.

Definition binaryLine_bit (f : bit_functor) := word_loop2 (bit_word f).

(** DLineArith_Bit.h:407-415, testLine<Bit, Bit>. *)
Definition testLine_bit := word_loop3 (fun a b c => Z.lor (Z.land a b) (Z.land (not64 a) c)).

(** DLineArith_Bit.h:48-70, copyLine<Bit>.  [memcpy] is a copy word after word: the theorems exclude
    the overlaps for which it is undefined. *)
Definition copyLine_bit (m : list Z) (l1 : bitarr) (size : Z) (lo : bitarr) : option (list Z) :=
  if (ba_index l1 =? 0) && (ba_index lo =? 0)
  then
    let fullNbr := uint (size / word_bits) in
    let bitRes := uint (size - fullNbr * word_bits) in
    let copy_word m i := match rd m (ba_int l1 + i) with
                         | Some a => wr m (ba_int lo + i) a
                         | None => None
                         end in
    match fold_opt copy_word (zseq fullNbr) m with
    | None => None
    | Some m1 => if bitRes =? 0 then Some m1 else copy_word m1 fullNbr
    end
  else
    fold_opt
      (fun m i => match ba_const_at m l1 i with
                  | Some v => ba_set m (ba_at lo (uint i)) v
                  | None => None
                  end) (zseq size) m.

(** [(a << l) | (b >> r)] and [(a >> r) | (b << l)], lines 171, 174, 203, 206 and 209. *)
Definition merge_left (a l b r : Z) : option Z :=
  match shl64 a l, shr64 b r with Some x, Some y => Some (Z.lor x y) | _, _ => None end.
Definition merge_right (a r b l : Z) : option Z :=
  match shr64 a r, shl64 b l with Some x, Some y => Some (Z.lor x y) | _, _ => None end.

(** Writing the word computed by a shift. *)
Definition wr_word (m : list Z) (p : Z) (o : option Z) : option (list Z) :=
  match o with Some w => wr m p w | None => None end.

(** DLineArith_Bit.h:149-175, bitShiftLeft. *)
Definition bitShiftLeft (m : list Z) (l1 : bitarr) (dx len : Z) (lo : bitarr) (border : bool)
  : option (list Z) :=
  let realLen := INT_SIZE len in
  let dxBytes := uint (dx / word_bits) in
  let bIn := ba_int l1 in
  let bOut := ba_int lo in
  let bBorder := word_of border in
  if to_int len <=? dx then fillLine_bit m lo len border
  else
    match fold_opt (fun m i => wr m (bOut + i) bBorder) (zseq dxBytes) m with
    | None => None
    | Some m1 =>
        let lMov := dx mod word_bits in
        let rMov := word_bits - lMov in
        match rd m1 bIn with
        | None => None
        | Some a =>
            match wr_word m1 (bOut + dxBytes) (merge_left a lMov bBorder rMov) with
            | None => None
            | Some m2 =>
                fold_opt
                  (fun m j =>
                     match rd m (bIn + 1 + j), rd m (bIn + 1 + j - 1) with
                     | Some a, Some b => wr_word m (bOut + dxBytes + 1 + j) (merge_left a lMov b rMov)
                     | _, _ => None
                     end) (zseq (realLen - (dxBytes + 1))) m2
            end
        end
    end.

(** DLineArith_Bit.h:177-210, bitShiftRight.  The pointers go down from the last word. *)
Definition bitShiftRight (m : list Z) (l1 : bitarr) (dx len : Z) (lo : bitarr) (border : bool)
  : option (list Z) :=
  let realLen := INT_SIZE len in
  let lenDiff := getBitPadX l1 in
  let dxReal := uint (dx + lenDiff) in
  let dxBytes := uint (dxReal / word_bits) in
  let bIn := ba_int l1 + realLen - 1 in
  let bOut := ba_int lo + realLen - 1 in
  let bBorder := word_of border in
  if to_int len <=? dx then fillLine_bit m lo len border
  else
    match fold_opt (fun m i => wr m (bOut - i) bBorder) (zseq dxBytes) m with
    | None => None
    | Some m1 =>
        let rMov := dx mod word_bits in
        let lMov := word_bits - rMov in
        match rd m1 bIn, shr64 (word_of true) lenDiff with
        | Some a, Some mask =>
            let rightMask := Z.land a mask in
            match wr_word m1 (bOut - dxBytes) (merge_right rightMask rMov bBorder lMov) with
            | None => None
            | Some m2 =>
                if dxBytes + 1 <? realLen
                then
                  match rd m2 (bIn - 1) with
                  | None => None
                  | Some b =>
                      match wr_word m2 (bOut - dxBytes - 1) (merge_right b rMov rightMask lMov) with
                      | None => None
                      | Some m3 =>
                          fold_opt
                            (fun m j =>
                               match rd m (bIn - 2 - j), rd m (bIn - 2 - j + 1) with
                               | Some a, Some b =>
                                   wr_word m (bOut - dxBytes - 2 - j) (merge_right a rMov b lMov)
                               | _, _ => None
                               end) (zseq (realLen - (dxBytes + 2))) m3
                      end
                  end
                else Some m2
            end
        | _, _ => None
        end
    end.

(** DLineArith_Bit.h:213-221, shiftLine<Bit>. *)
Definition shiftLine_bit (m : list Z) (l1 : bitarr) (dx len : Z) (lo : bitarr) (border : bool)
  : option (list Z) :=
  if dx =? 0 then copyLine_bit m l1 len lo
  else if 0 <? dx then bitShiftLeft m l1 dx len lo border
  else bitShiftRight m l1 (- dx) len lo border.
