(** What image files contain, after the descriptions of their formats. *)
From Verif Require Export Spec.ImageSpec.

(** ** Text.  A decimal number, white space, a line. *)
Definition digit_char (c : Z) : Prop := 48 <= c <= 57.
Definition numeral (l : list Z) (n : Z) : Prop := l <> [] /\ Forall digit_char l /\ fold_left (fun a c => 10 * a + (c - 48)) l 0 = n.
Definition white (c : Z) : Prop := c = 32 \/ 9 <= c <= 13.
Definition blanks (l : list Z) : Prop := l <> [] /\ Forall white l.
Definition no_newline (l : list Z) : Prop := ~ In 10 l.

(** ** Netpbm: "P", the kind, lines of comments, the width and the height. *)
Definition netpbm_start (k : Z) (comments : list (list Z)) (w h : Z) (l : list Z) : Prop :=
  Forall no_newline comments /\
  exists nw sp nh, numeral nw w /\ blanks sp /\ numeral nh h /\ l = [80; 48 + k; 10] ++ flat_map (fun c => 35 :: c ++ [10]) comments ++ nw ++ sp ++ nh.

(** Kinds 2 and 5 (gray levels): then the greatest value and one white character. *)
Definition netpbm_gray (k : Z) (comments : list (list Z)) (w h maxval : Z) (l : list Z) : Prop :=
  exists a sp nm c, netpbm_start k comments w h a /\ blanks sp /\ numeral nm maxval /\ white c /\ l = a ++ sp ++ nm ++ [c].

(** The pixels of kind 2: decimal numbers, each followed by white space. *)
Definition ascii_values (vals : list Z) (text : list Z) : Prop :=
  exists words : list (list Z * list Z), Forall2 (fun v w => numeral (fst w) v /\ blanks (snd w)) vals words /\ text = flat_map (fun w => fst w ++ snd w) words.

(** Kinds 1 and 4 (black and white): one white character, then the pixels. *)
Definition netpbm_binary (k : Z) (comments : list (list Z)) (w h : Z) (l : list Z) : Prop :=
  exists a c, netpbm_start k comments w h a /\ white c /\ l = a ++ [c].

(** ** BMP *)
Definition u16 (data : list Z) (p v : Z) : Prop :=
  exists b0 b1, rd data p = Some b0 /\ rd data (p + 1) = Some b1 /\ v = b0 + 256 * b1.
Definition u32 (data : list Z) (p v : Z) : Prop :=
  exists b0 b1 b2 b3, rd data p = Some b0 /\ rd data (p + 1) = Some b1 /\ rd data (p + 2) = Some b2 /\ rd data (p + 3) = Some b3 /\
    v = b0 + 256 * b1 + 65536 * b2 + 16777216 * b3.

(** The two headers, for [bpp] bits per pixel without compression; [off] is the position of the pixels. *)
Definition bmp_head (data : list Z) (w h bpp off : Z) : Prop :=
  rd data 0 = Some 66 /\ rd data 1 = Some 77 /\ u32 data 10 off /\ u32 data 14 40 /\ u32 data 18 w /\ u32 data 22 h /\ u16 data 26 1 /\ u16 data 28 bpp /\ u32 data 30 0.
(** The table of [n] colours (blue, green, red), just after the headers. *)
Definition bmp_table (data : list Z) (n : Z) (col : Z -> Z * Z * Z) : Prop :=
  u32 data 46 n /\ forall i, 0 <= i < n ->
    exists r g b a, col i = (r, g, b) /\ rd data (54 + 4 * i) = Some b /\ rd data (54 + 4 * i + 1) = Some g /\ rd data (54 + 4 * i + 2) = Some r /\ rd data (54 + 4 * i + 3) = Some a.
(** The lines from the last one to the first one; each takes a number of bytes that is a multiple of 4. *)
Definition bmp_stride (w bpp : Z) : Z := 4 * ((w * bpp + 31) / 32).
Definition bmp_pixels8 (data : list Z) (w h off : Z) (pix : Z -> Z -> Z) : Prop :=
  off + h * bmp_stride w 8 <= Z.of_nat (length data) /\
  forall x y, 0 <= x < w -> 0 <= y < h -> rd data (off + (h - 1 - y) * bmp_stride w 8 + x) = Some (pix x y).
Definition bmp_pixels24 (stride : Z) (data : list Z) (w h off : Z) (pix : Z -> Z -> Z * Z * Z) : Prop :=
  off + h * stride <= Z.of_nat (length data) /\
  forall x y, 0 <= x < w -> 0 <= y < h -> exists r g b, pix x y = (r, g, b) /\
    rd data (off + (h - 1 - y) * stride + 3 * x) = Some b /\ rd data (off + (h - 1 - y) * stride + 3 * x + 1) = Some g /\ rd data (off + (h - 1 - y) * stride + 3 * x + 2) = Some r.
