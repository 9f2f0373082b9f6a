(** What a user of bit arrays, bit images and bit lines relies on. *)
From Verif Require Export Model.Bits.

(** The memory holds 64-bit words. *)
Definition all_words (m : list Z) : Prop := forall k w, rd m k = Some w -> 0 <= w < 2 ^ 64.

(** Words needed by a row of [w] bits. *)
Definition row_words (w : Z) : Z := (w + 63) / 64.

(** A bit array of at least one bit whose words are in the memory and number at most 2^26. *)
Definition array_in (m : list Z) (a : bitarr) : Prop :=
  all_words m /\ 0 < ba_width a < 2 ^ 32 /\ 0 < ba_height a /\ 64 * (row_words (ba_width a) * ba_height a) <= 2 ^ 32 /\
  0 <= ba_int a /\ ba_int a + row_words (ba_width a) * ba_height a <= Z.of_nat (length m).

(** A line of an image: one row, read from its first bit. *)
Definition line_in (m : list Z) (a : bitarr) : Prop :=
  array_in m a /\ ba_height a = 1 /\ ba_index a = 0.

(** Two arrays have no word in common. *)
Definition apart (a b : bitarr) : Prop :=
  ba_int a + row_words (ba_width a) * ba_height a <= ba_int b \/
  ba_int b + row_words (ba_width b) * ba_height b <= ba_int a.

(** Two lines are the same words or have none in common. *)
Definition same_or_apart (a b : bitarr) : Prop := ba_int a = ba_int b \/ apart a b.

(** The words of the memory that are not those of [a] are the same in [m] and [m']. *)
Definition only_in (a : bitarr) (m m' : list Z) : Prop :=
  length m' = length m /\ all_words m' /\
  forall k, k < ba_int a \/ ba_int a + row_words (ba_width a) * ba_height a <= k -> rd m' k = rd m k.

(** The operations on pixels whose values are 0 and 1, by arithmetic: sums and differences saturated
    to [0, 1] or modulo 2, products, quotients (a quotient by 0 is the maximum), comparisons. *)
Definition bit_arith (f : bit_functor) (x y : Z) : Z :=
  match f with
  | bAdd => Z.min 1 (x + y)
  | bAddNoSat => (x + y) mod 2
  | bSub => Z.max 0 (x - y)
  | bSubNoSat => (x - y) mod 2
  | bSup => Z.max x y
  | bInf => Z.min x y
  | bGrt => if y <? x then 1 else 0
  | bGrtOrEqu => if y <=? x then 1 else 0
  | bLow => if x <? y then 1 else 0
  | bLowOrEqu => if x <=? y then 1 else 0
  | bEqu => if x =? y then 1 else 0
  | bDiff => if x =? y then 0 else 1
  | bMul => x * y
  | bMulNoSat => (x * y) mod 2
  | bDiv => if y =? 0 then 1 else x / y
  | bLogicAnd => if (x =? 0) || (y =? 0) then 0 else 1
  | bLogicOr => if (x =? 0) && (y =? 0) then 0 else 1
  end.

(** The words of an image of [w] x [h] x [d] bits at offset [p]. *)
Definition bit_image_in (m : list Z) (p w h d : Z) : Prop :=
  all_words m /\ 0 < w < 2 ^ 32 /\ 0 < h /\ 0 < d /\ 64 * (row_words w * (h * d)) <= 2 ^ 32 /\
  0 <= p /\ p + row_words w * (h * d) <= Z.of_nat (length m).
