(** Colour pixels, colour lines and channels: Core/include/private/DMultichannelTypes.hpp, NSTypes/RGB/include/DLineArith_RGB.h,
    NSTypes/RGB/include/DImage_RGB.h:156-180 and Base/include/private/DImageArith.hpp:1785-1905.

    A pixel is the list of its channels.  A colour image holds one array per channel.  The channels of the integer types of
    [ity] are modelled, for any number of channels. *)
From Verif Require Export Model.Loops.
Local Open Scope Z_scope.

(** ** Pixels *)
(** The loops [for (i...) if (fail) return false; return true;]. *)
Fixpoint no_channel (fail : Z -> Z -> bool) (a b : list Z) : bool :=
  match a, b with
  | x :: a, y :: b => if fail x y then false else no_channel fail a b
  | _, _ => true
  end.
Definition mc_eq := no_channel (fun x y => negb (x =? y)).   (** 88-94 *)
Definition mc_ne := no_channel (fun x y => x =? y).          (** 102-108 *)
Definition mc_lt := no_channel (fun x y => x >=? y).         (** 113-119 *)
Definition mc_le := no_channel (fun x y => x >? y).          (** 120-126 *)
Definition mc_gt := no_channel (fun x y => x <=? y).         (** 127-133 *)
Definition mc_ge := no_channel (fun x y => x <? y).          (** 134-140 *)
(** [operator ==(const int &)], 95-101, and [operator !=(const int &)], 109-112: the latter converts the number to a channel. *)
Definition mc_eq_int (a : list Z) (v : Z) : bool := mc_eq a (repeat v (length a)).
Definition mc_ne_int (t : ity) (a : list Z) (v : Z) : bool := mc_ne a (repeat (wrap t v) (length a)).
(** The conversions to a number, 305-334: the mean of the channels [c], its integer part for the integer types (the division
    is exact up to the rounding of [double], which does not change the integer part of a quotient of small integers). *)
Definition mc_int (c : list Z) : Z := Z.quot (fold_right Z.add 0 c) (Z.of_nat (length c)).
Definition mc_bool (c : list Z) : bool := negb (fold_right Z.add 0 c =? 0).

(** The generic [supLine], Base/include/private/DLineArith.hpp:174-175, and [diffLine], 370-371, at one colour pixel. *)
Definition mc_sup (a b : list Z) : list Z := if mc_gt a b then a else b.
Definition mc_diff (t f a b : list Z) : list Z := if mc_eq a b then f else t.

(** ** Lines *)
(** MultichannelArray: one pointer per channel (an offset in the array of the channel) and the member [index], a UINT. *)
Record carr : Type := CArr { ptrs : list Z; cidx : Z }.
Definition u32 (z : Z) : Z := z mod 2 ^ 32.
Definition carr_new (n : nat) : carr := CArr (repeat 0 n) 0.                                                     (** 436-445 *)
Definition carr_copy (a : carr) : carr := CArr (map (fun p => p + cidx a) (ptrs a)) 0.                           (** 403-408, 524-532 *)
Definition carr_at (a : carr) (newindex : Z) : carr := CArr (map (fun p => p + cidx a + u32 newindex) (ptrs a)) 0.  (** 409-414 *)
Definition carr_plus (a : carr) (dp : Z) : carr := carr_at a (cidx a + dp).                                      (** 491-507 *)
Definition carr_incr (a : carr) : carr := CArr (ptrs a) (u32 (cidx a + 1)).                                      (** 510-514 *)
Definition carr_minus (a b : carr) : Z := (hd 0 (ptrs a) + cidx a) - (hd 0 (ptrs b) + cidx b).                    (** 516-519 *)

(** MultichannelArrayItem, 355-383: [own] is the member [c] inherited from MultichannelType, [refs] are the pointers [_c]. *)
Record citem : Type := CItem { own : list Z; refs : list Z }.
Definition carr_item (a : carr) (i : Z) : citem := CItem (repeat 0 (length (ptrs a))) (map (fun p => p + u32 (cidx a + i)) (ptrs a)).  (** 364-368, 458-461 *)
(** [value(i)] for all the channels, 375-382. *)
Definition item_values (mem : list (list Z)) (it : citem) : option (list Z) := all_some (map2 rd mem (refs it)).
(** [operator =(const MCType &)], 369-374. *)
Definition item_assign (mem : list (list Z)) (it : citem) (c : list Z) : option (list (list Z)) :=
  all_some (map2 (fun m rc => wr m (fst rc) (snd rc)) mem (map2 pair (refs it) c)).
(** The conversions of an item to a number: [operator double], 305-311, reads the member [c]. *)
Definition item_int (it : citem) : Z := mc_int (own it).
(** The [const] operator [], 462-465, copies the values to a new pixel. *)
Definition carr_read (mem : list (list Z)) (a : carr) (i : Z) : option (list Z) := item_values mem (carr_item a i).

(** ** Images *)
Record cimg : Type := CImg { csz : dims; chans : list (list Z) }.
(** [setSize], as in [Loops]: new arrays unless the size is the same. *)
Definition csetSize (junk : Z -> Z) (n : nat) (im : cimg) (s : dims) : cimg :=
  if (dw s =? dw (csz im)) && (dh s =? dh (csz im)) && (dd s =? dd (csz im)) then im
  else CImg s (repeat (map junk (zseq (pixelCount s))) n).

(** [copyLine<T1, T2>], Base/include/private/DLineArith.hpp:49-56: from offset [a] of [src] to offset [b] of [dst]. *)
Definition copy_line (t : ity) (src : list Z) (a n : Z) (dst : list Z) (b : Z) : option (list Z) :=
  scatter (fun i => option_map (fun v => (b + i, wrap t v)) (rd src (a + i))) (zseq n) dst.

Definition same_dims (a b : dims) : bool := (dw a =? dw b) && (dh a =? dh b) && (dd a =? dd b).
(** [copyChannel], 1785-1800: a false ASSERT returns RES_ERR = -100, ASSERT_SAME_SIZE returns RES_ERR_BAD_SIZE = -98. *)
Definition copyChannel (t : ity) (im : cimg) (chan : Z) (out : img) : option (Z * img) :=
  if negb (chan <? Z.of_nat (length (chans im))) then Some (-100, out) else
  if negb (same_dims (csz im) (sz out)) then Some (-98, out) else
  option_bind (rd (chans im) chan) (fun c =>
  option_bind (copy_line t c 0 (pixelCount (csz im)) (pixs out) 0) (fun px => Some (1, Img (sz out) px))).
(** [copyToChannel], 1818-1833. *)
Definition copyToChannel (t : ity) (im : img) (chan : Z) (out : cimg) : option (Z * cimg) :=
  if negb (chan <? Z.of_nat (length (chans out))) then Some (-100, out) else
  if negb (same_dims (sz im) (csz out)) then Some (-98, out) else
  option_bind (rd (chans out) chan) (fun c =>
  option_bind (copy_line t (pixs im) 0 (pixelCount (sz im)) c 0) (fun c =>
  option_bind (wr (chans out) chan c) (fun cs => Some (1, CImg (csz out) cs)))).

(** [splitChannels], 1850-1872: [pixCount] is a UINT. *)
Definition splitChannels (t : ity) (junk : Z -> Z) (im : cimg) (out : img) : option (Z * img) :=
  let w := u32 (dw (csz im)) in
  let h := u32 (dh (csz im)) in
  let n := Z.of_nat (length (chans im)) in
  let pixCount := u32 (w * h) in
  let out := setSize junk out (Dims w h n) in
  option_bind (fold_opt (fun px i => option_bind (rd (chans im) i) (fun c => copy_line t c 0 pixCount px (i * pixCount))) (zseq n) (pixs out)) (fun px =>
  Some (1, Img (sz out) px)).
(** [mergeChannels], 1883-1905: [n] is the number of channels of the output. *)
Definition mergeChannels (t : ity) (junk : Z -> Z) (n : nat) (im : img) (out : cimg) : option (Z * cimg) :=
  if negb (dd (sz im) =? Z.of_nat n) then Some (-100, out) else
  let w := u32 (dw (sz im)) in
  let h := u32 (dh (sz im)) in
  let pixCount := u32 (w * h) in
  let out := csetSize junk n out (Dims w h 1) in
  option_bind (fold_opt (fun cs i => option_bind (rd cs i) (fun c => option_bind (copy_line t (pixs im) (i * pixCount) pixCount c 0) (fun c => wr cs i c))) (zseq (Z.of_nat n)) (chans out)) (fun cs =>
  Some (1, CImg (csz out) cs)).

(** ** RGB lines: one loop per channel, DLineArith_RGB.h:99-156 ([supLine], [infLine], [equLine]). *)
Definition rgb_line (f : Z -> Z -> Z) (in1 in2 : list (list Z)) (size : Z) (out : list (list Z)) : option (list (list Z)) :=
  fold_opt (fun out n =>
      option_bind (rd in1 n) (fun c1 => option_bind (rd in2 n) (fun c2 => option_bind (rd out n) (fun c =>
      option_bind (scatter (fun i => option_bind (rd c1 i) (fun a => option_map (fun b => (i, f a b)) (rd c2 i))) (zseq size) c) (fun c => wr out n c)))))
    (zseq 3) out.
Definition rgb_sup := rgb_line (fun a b => if a >? b then a else b).
Definition rgb_inf := rgb_line (fun a b => if a <? b then a else b).
Definition rgb_equ := rgb_line (fun a b => if a =? b then 255 else 0).
(** [vol] and [operator bool] of an RGB image, DImage_RGB.h:156-180. *)
Definition rgb_vol (im : cimg) : Z := fold_right Z.add 0 (map (fold_right Z.add 0) (firstn 3 (chans im))).
Definition rgb_bool (im : cimg) : bool := rgb_vol im =? 255 * pixelCount (csz im) * 3.
(** [bool equ(imIn1, imIn2)], Base/include/private/DImageArith.hpp:411-427, for colour images: the pixels are compared by [!=];
    the sizes are equal. *)
Definition color_equ (im1 im2 : cimg) : option bool :=
  option_map (forallb negb) (all_some (map (fun i =>
    option_bind (carr_read (chans im1) (carr_new (length (chans im1))) i) (fun a =>
    option_map (mc_ne a) (carr_read (chans im2) (carr_new (length (chans im2))) i))) (zseq (pixelCount (csz im1))))).
