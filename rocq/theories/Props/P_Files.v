(** C78 to C83: reading and writing image files. *)
From Verif Require Export Proofs.FilesProofs7.


(** ** C78.  A PGM file gives back the image that was written, over any previous contents of the receiving image. *)
Theorem C78_roundtrip_partial : forall fuel vs mem im image name, wf_img im -> wf_img image -> depth im = 1 ->
  width im < 2 ^ 31 -> height im < 2 ^ 31 -> width im * height im < 2 ^ 31 -> no_newline name -> (2 <= fuel)%nat ->
  pgm_read fuel vs mem (pgm_write name im) image = Some (Some (1, im)).
Proof. intros fuel vs mem im image name W Wi Hd Hw Hh Hn N F. rewrite pgm_roundtrip by (try assumption; lia). rewrite flat_img by assumption. reflexivity. Qed.
Print Assumptions C78_roundtrip_partial.

(** What is written is a PGM file in the sense of its format, whose pixels are those of the first slice. *)
Theorem C78_format : forall name im, no_newline name -> wf_img im ->
  exists head, netpbm_gray 5 [32 :: name] (width im) (height im) 255 head /\ pgm_write name im = head ++ firstn (Z.to_nat (width im * height im)) (pixs im).
Proof. exact pgm_write_gray. Qed.
Print Assumptions C78_format.

(** Any file of that format, with any comments and spacing, gives its pixels. *)
Theorem C78_read_partial : forall fuel vs mem image comments w h maxval head px rest, netpbm_gray 5 comments w h maxval head -> (length comments < fuel)%nat ->
  0 <= w < 2 ^ 31 -> 0 <= h < 2 ^ 31 -> w * h < 2 ^ 31 -> maxval < 2 ^ 32 -> wf_img image -> Z.of_nat (length px) = w * h ->
  pgm_read fuel vs mem (head ++ px ++ rest) image = Some (Some (1, Img (Dims w h 1) px)).
Proof. intros fuel vs mem image cs w h mx a px r A F Hw Hh Hn Hm W L. eapply pgm_read_binary; eassumption. Qed.
Print Assumptions C78_read_partial.

(** False in general: only the first slice of a volume is written, and the return code is RES_OK ... *)
Theorem C78_volume_refuted : forall fuel vs mem im image name, wf_img im -> wf_img image -> 2 <= depth im -> nonempty im ->
  width im < 2 ^ 31 -> height im < 2 ^ 31 -> width im * height im < 2 ^ 31 -> no_newline name -> (2 <= fuel)%nat ->
  exists out, pgm_read fuel vs mem (pgm_write name im) image = Some (Some (1, out)) /\ depth out = 1 /\ out <> im.
Proof.
  intros fuel vs mem im image name W Wi Hd Ne Hw Hh Hn N F. rewrite pgm_roundtrip by (try assumption; lia). eexists. split; [reflexivity|]. split; [reflexivity|]. intros E. rewrite <- E in Hd. unfold depth in Hd. cbn in Hd. lia.
Qed.
Print Assumptions C78_volume_refuted.

(** ... and a name with a line end spoils the header. *)
Theorem C78_name_refuted : forall vs mem, exists name im, wf_img im /\ typed_img UINT8 im /\ depth im = 1 /\ exists code out, pgm_read 9 vs mem (pgm_write name im) (Img (Dims 0 0 0) []) = Some (Some (code, out)) /\ out <> im.
Proof.
  intros vs mem. exists [10; 97], (Img (Dims 2 1 1) [5; 6]). split; [split; [unfold wf_dims; cbn; lia|reflexivity]|]. split; [repeat constructor; unfold inty; cbn; lia|]. split; [reflexivity|].
  eexists. eexists. split; [vm_compute; reflexivity|]. discriminate.
Qed.
Print Assumptions C78_name_refuted.

Example C78_case : let im := Img (Dims 3 2 1) [0; 10; 255; 35; 80; 7] in
  wf_img im /\ depth im = 1 /\ no_newline [97; 46; 112; 103; 109] /\ pgm_read 2 16 (fun _ => 77) (pgm_write [97; 46; 112; 103; 109] im) (Img (Dims 1 1 1) [9]) = Some (Some (1, im)).
Proof. cbv zeta. split; [split; [unfold wf_dims; cbn; lia|reflexivity]|]. split; [reflexivity|]. split; [intros Q; cbn in Q; lia|]. vm_compute. reflexivity. Qed.

(** ** C79.  Reading Netpbm files of other kinds.  P4 (packed bits): set bits give the greatest value of the type, others 0;
    every line starts on a byte. *)
Theorem C79_p4_partial : forall fuel t mem image comments w h head raster, netpbm_binary 4 comments w h head -> (length comments < fuel)%nat ->
  0 <= w < 2 ^ 64 -> 0 <= h < 2 ^ 64 -> h * ((w + 7) / 8) <= Z.of_nat (length raster) -> Forall (fun b => 0 <= b < 256) raster ->
  exists im, pbm_read fuel t mem (head ++ raster) image = Some (Some (1, im)) /\ wf_img im /\ sz im = Dims w h 1 /\
    forall x y b, 0 <= x < w -> 0 <= y < h -> rd raster (y * ((w + 7) / 8) + x / 8) = Some b -> pixel_is im x y 0 (if Z.testbit b (7 - x mod 8) then tmax t else 0).
Proof. exact pbm_read_bits. Qed.
Print Assumptions C79_p4_partial.

(** P2 (decimal numbers): values are scaled to 0..255, when the buffer that the values are read into is long enough. *)
Theorem C79_p2_partial : forall fuel vs mem image comments w h maxval head vals text, netpbm_gray 2 comments w h maxval head -> (length comments < fuel)%nat ->
  0 <= w < 2 ^ 31 -> 0 <= h < 2 ^ 31 -> 0 < maxval -> maxval * 255 < 2 ^ 31 -> wf_img image ->
  Z.of_nat (length vals) = w * h -> Forall (fun v => v <= maxval) vals -> ascii_values vals text -> 0 < vs -> w * h < 2 ^ 31 -> (w * h) mod vs < vs - 2 ->
  pgm_read fuel vs mem (head ++ text) image = Some (Some (1, Img (Dims w h 1) (map (fun v => v * 255 / maxval) vals))).
Proof. intros. eapply pgm_read_p2; eassumption. Qed.
Print Assumptions C79_p2_partial.

(** Otherwise the program writes outside of that buffer. *)
Theorem C79_p2_refuted : forall fuel vs mem image comments w h maxval head vals text, netpbm_gray 2 comments w h maxval head -> (length comments < fuel)%nat ->
  0 <= w < 2 ^ 31 -> 0 <= h < 2 ^ 31 -> 0 < maxval -> maxval * 255 < 2 ^ 31 -> wf_img image ->
  Z.of_nat (length vals) = w * h -> Forall (fun v => v <= maxval) vals -> ascii_values vals text -> 0 < vs -> w * h < 2 ^ 31 -> 0 < w * h -> vs - 2 <= (w * h) mod vs ->
  pgm_read fuel vs mem (head ++ text) image = None.
Proof. intros. eapply pgm_read_p2_outside; eassumption. Qed.
Print Assumptions C79_p2_refuted.

(** A file that ends within a comment is never read to its end: the loop that skips the comments does not terminate. *)
Theorem C79_comment_refuted : forall fuel k kd l, pnm_kind k = Some kd -> no_newline l -> readNetPBMFileInfo fuel (is_open ([80; 48 + k; 10] ++ 35 :: l)) = Some None.
Proof. exact comment_stuck. Qed.
Print Assumptions C79_comment_refuted.
Theorem C79_loop_refuted : forall fuel vs mem image l, no_newline l -> pgm_read fuel vs mem ([80; 53; 10] ++ 35 :: l) image = Some None.
Proof. intros fuel vs mem image l N. unfold pgm_read. pose proof (comment_stuck fuel 5 _ l eq_refl N) as E. change (48 + 5) with 53 in E. rewrite E. reflexivity. Qed.
Print Assumptions C79_loop_refuted.

(** A binary file that is too short is accepted; the missing pixels are the previous contents of the memory. *)
Theorem C79_short_refuted : forall vs mem, exists head, netpbm_gray 5 [] 4 1 255 head /\ pgm_read 2 vs mem (head ++ [1; 2]) (Img (Dims 0 0 0) []) = Some (Some (1, Img (Dims 4 1 1) [1; 2; mem 2; mem 3])).
Proof.
  intros vs mem. exists [80; 53; 10; 52; 32; 49; 10; 50; 53; 53; 10]. split; [|vm_compute; reflexivity].
  exists [80; 53; 10; 52; 32; 49], [10], [50; 53; 53], 10. split.
  { split; [constructor|]. exists [52], [32], [49]. repeat split; try discriminate; repeat constructor; unfold digit_char, white; lia. }
  repeat split; try discriminate; repeat constructor; unfold digit_char, white; lia.
Qed.
Print Assumptions C79_short_refuted.

(** The greatest value is used in text files and not in binary files: the same image, in the two kinds, is not read as the
    same image. *)
Theorem C79_maxval_refuted : forall mem, exists head2 head5 text px, netpbm_gray 2 [] 2 1 1 head2 /\ netpbm_gray 5 [] 2 1 1 head5 /\ ascii_values px text /\
  pgm_read 2 16 mem (head2 ++ text) (Img (Dims 0 0 0) []) = Some (Some (1, Img (Dims 2 1 1) [0; 255])) /\ pgm_read 2 16 mem (head5 ++ px) (Img (Dims 0 0 0) []) = Some (Some (1, Img (Dims 2 1 1) [0; 1])).
Proof.
  intros mem. exists [80; 50; 10; 50; 32; 49; 10; 49; 10], [80; 53; 10; 50; 32; 49; 10; 49; 10], [48; 32; 49; 10], [0; 1].
  assert (G : forall k, netpbm_gray k [] 2 1 1 [80; 48 + k; 10; 50; 32; 49; 10; 49; 10]).
  { intros k. exists [80; 48 + k; 10; 50; 32; 49], [10], [49], 10. split.
    { split; [constructor|]. exists [50], [32], [49]. repeat split; try discriminate; repeat constructor; unfold digit_char, white; lia. }
    repeat split; try discriminate; repeat constructor; unfold digit_char, white; lia. }
  split; [exact (G 2)|]. split; [exact (G 5)|]. split.
  { exists [([48], [32]); ([49], [10])]. split; [|reflexivity]. repeat constructor; try discriminate; unfold digit_char, white; cbn; lia. }
  split; vm_compute; reflexivity.
Qed.
Print Assumptions C79_maxval_refuted.

(** P1 (digits 0 and 1, which need not be separated): "10" is read as one pixel and the next one takes the same value. *)
Theorem C79_p1_refuted : forall mem, exists head, netpbm_binary 1 [] 2 1 head /\ pbm_read 2 UINT8 mem (head ++ [49; 48]) (Img (Dims 0 0 0) []) = Some (Some (1, Img (Dims 2 1 1) [255; 255])).
Proof.
  intros mem. exists [80; 49; 10; 50; 32; 49; 10]. split; [|vm_compute; reflexivity]. exists [80; 49; 10; 50; 32; 49], 10. split; [|split; [unfold white; lia|reflexivity]].
  split; [constructor|]. exists [50], [32], [49]. repeat split; try discriminate; repeat constructor; unfold digit_char, white; lia.
Qed.
Print Assumptions C79_p1_refuted.

(** Files whose number of pixels is 2^31 or more overflow a signed int. *)
Theorem C79_size_refuted : forall fuel vs mem image comments w h maxval head rest, netpbm_gray 5 comments w h maxval head -> (length comments < fuel)%nat ->
  0 <= w < 2 ^ 31 -> 0 <= h < 2 ^ 31 -> 2 ^ 31 <= w * h -> maxval < 2 ^ 32 -> pgm_read fuel vs mem (head ++ rest) image = None.
Proof. intros. eapply pgm_read_overflow; eassumption. Qed.
Print Assumptions C79_size_refuted.

Example C79_p4_case : exists head, netpbm_binary 4 [[32; 98]] 10 2 head /\
  pbm_read 2 UINT8 (fun _ => 9) (head ++ [129; 64; 0; 128]) (Img (Dims 0 0 0) []) = Some (Some (1, Img (Dims 10 2 1) [255; 0; 0; 0; 0; 0; 0; 255; 0; 255; 0; 0; 0; 0; 0; 0; 0; 0; 255; 0])).
Proof.
  exists [80; 52; 10; 35; 32; 98; 10; 49; 48; 32; 50; 10]. split; [|vm_compute; reflexivity]. exists [80; 52; 10; 35; 32; 98; 10; 49; 48; 32; 50], 10. split; [|split; [unfold white; lia|reflexivity]].
  split; [constructor; [intros Q; cbn in Q; lia|constructor]|]. exists [49; 48], [32], [50]. repeat split; try discriminate; repeat constructor; unfold digit_char, white; lia.
Qed.
Example C79_p2_case : exists head text, netpbm_gray 2 [] 3 1 100 head /\ ascii_values [0; 50; 100] text /\ (3 * 1) mod 16 < 16 - 2 /\
  pgm_read 2 16 (fun _ => 9) (head ++ text) (Img (Dims 0 0 0) []) = Some (Some (1, Img (Dims 3 1 1) [0; 127; 255])).
Proof.
  exists [80; 50; 10; 51; 32; 49; 10; 49; 48; 48; 10], [48; 32; 53; 48; 32; 49; 48; 48; 10]. split; [|split; [|split; [reflexivity|vm_compute; reflexivity]]].
  { exists [80; 50; 10; 51; 32; 49], [10], [49; 48; 48], 10. split.
    { split; [constructor|]. exists [51], [32], [49]. repeat split; try discriminate; repeat constructor; unfold digit_char, white; lia. }
    repeat split; try discriminate; repeat constructor; unfold digit_char, white; lia. }
  exists [([48], [32]); ([53; 48], [32]); ([49; 48; 48], [10])]. split; [|reflexivity]. repeat constructor; try discriminate; unfold digit_char, white; cbn; lia.
Qed.

(** ** C80.  BMP.  The file written for an 8-bit image is a BMP file with a table of 256 gray levels and the pixels of the first
    slice, and reading it back gives these pixels. *)
Theorem C80_format_partial : forall junk im, wf_img im -> 1 <= depth im -> width im < 2 ^ 31 -> height im < 2 ^ 31 ->
  bmp_head (bmp_write junk im) (width im) (height im) 8 1078 /\ bmp_table (bmp_write junk im) 256 (fun i => (i, i, i)) /\
  bmp_pixels8 (bmp_write junk im) (width im) (height im) 1078 (fun x y => znth 0 (pixs im) (y * width im + x)).
Proof. exact bmp_write_ok. Qed.
Print Assumptions C80_format_partial.

Theorem C80_roundtrip_partial : forall mem junk im image, wf_img im -> wf_img image -> typed_img UINT8 im -> depth im = 1 -> width im < 2 ^ 31 -> height im < 2 ^ 31 ->
  bmp_read mem (bmp_write junk im) image = Some (1, im).
Proof. intros mem junk im image W Wi T Hd Hw Hh. rewrite bmp_roundtrip by (try assumption; lia). rewrite flat_img by assumption. reflexivity. Qed.
Print Assumptions C80_roundtrip_partial.

(** Any 8-bit file whose table has its number of colours written in the header and whose pixels index the table: every pixel is
    the mean of the three components of its colour. *)
Theorem C80_read_partial : forall mem data image w h off n col pix, 0 <= w < 2 ^ 31 -> 0 <= h < 2 ^ 31 -> 0 <= off -> 0 < n -> wf_img image ->
  bmp_head data w h 8 off -> bmp_table data n col -> bmp_pixels8 data w h off pix -> (forall x y, 0 <= x < w -> 0 <= y < h -> 0 <= pix x y < n) ->
  exists im, bmp_read mem data image = Some (1, im) /\ wf_img im /\ sz im = Dims w h 1 /\
    forall x y, 0 <= x < w -> 0 <= y < h -> let '(r, g, b) := col (pix x y) in pixel_is im x y 0 ((r + g + b) / 3).
Proof.
  intros mem data image w h off n col pix Hw Hh Ho Hn W H T P In. destruct (bmp_read_ok mem data image w h off n col pix Hw Hh Ho Hn W H T P In) as (im & E & Wi & S & R).
  exists im. split; [exact E|]. split; [exact Wi|]. split; [exact S|]. intros x y Hx Hy. specialize (R x y Hx Hy). destruct (col (pix x y)) as ((r, g), b). split; rewrite S; [unfold inside; cbn; lia|].
  unfold voxel_offset. cbn [dw dh dd]. replace (x + w * (y + h * 0)) with (y * w + x) by ring. exact R.
Qed.
Print Assumptions C80_read_partial.

(** Colour images: the file read back gives the image. *)
Theorem C80_rgb_roundtrip_partial : forall mem junk im image, wf_rgb im -> dd (rg_sz im) = 1 -> dw (rg_sz im) < 2 ^ 31 -> dh (rg_sz im) < 2 ^ 31 ->
  bmp_read_rgb mem (bmp_write_rgb junk im) image = Some (1, im).
Proof. exact bmp_rgb_roundtrip. Qed.
Print Assumptions C80_rgb_roundtrip_partial.

(** It is a BMP file when the width is a multiple of 4 ... *)
Theorem C80_rgb_format_partial : forall junk im, 0 <= dw (rg_sz im) < 2 ^ 31 -> 0 <= dh (rg_sz im) < 2 ^ 31 -> dw (rg_sz im) mod 4 = 0 ->
  bmp_head (bmp_write_rgb junk im) (dw (rg_sz im)) (dh (rg_sz im)) 24 54 /\ bmp_pixels24 (bmp_stride (dw (rg_sz im)) 24) (bmp_write_rgb junk im) (dw (rg_sz im)) (dh (rg_sz im)) 54 (rgb_at im).
Proof.
  intros junk im Hw Hh M. destruct (bmp_write_rgb_ok junk im Hw Hh) as (H & P & _). split; [exact H|]. replace (bmp_stride (dw (rg_sz im)) 24) with (dw (rg_sz im) * 3); [exact P|]. unfold bmp_stride.
  pose proof (Z.div_mod (dw (rg_sz im)) 4 ltac:(lia)) as D. rewrite M in D. set (q := dw (rg_sz im) / 4) in *. rewrite D. replace ((4 * q + 0) * 24 + 31) with (31 + 3 * q * 32) by ring. rewrite Z.div_add by lia. change (31 / 32) with 0. ring.
Qed.
Print Assumptions C80_rgb_format_partial.

(** ... and it is not otherwise: the lines are not padded, so the file is too short. *)
Theorem C80_rgb_refuted : forall junk, exists im, wf_rgb im /\ dd (rg_sz im) = 1 /\ bmp_head (bmp_write_rgb junk im) 3 2 24 54 /\
  ~ exists pix, bmp_pixels24 (bmp_stride 3 24) (bmp_write_rgb junk im) 3 2 54 pix.
Proof.
  intros junk. set (im := Rgb3 (Dims 3 2 1) [1; 2; 3; 4; 5; 6] [11; 12; 13; 14; 15; 16] [21; 22; 23; 24; 25; 26]). exists im. split; [repeat split; cbn; lia|]. split; [reflexivity|]. split; [exact (proj1 (bmp_write_rgb_ok junk im ltac:(cbn; lia) ltac:(cbn; lia)))|].
  intros (pix & L & _). assert (E : length (bmp_write_rgb junk im) = 72%nat) by (vm_compute; reflexivity). rewrite E in L. change (bmp_stride 3 24) with 12 in L. lia.
Qed.
Print Assumptions C80_rgb_refuted.

(** A file that says 0 for its number of colours (that is, all of them) makes the program read outside of an empty table. *)
Theorem C80_colours_refuted : forall mem data image w h off b, 0 < w < 2 ^ 31 -> 0 < h < 2 ^ 31 -> 0 <= off -> wf_img image -> 54 <= Z.of_nat (length data) ->
  bmp_head data w h 8 off -> u32 data 46 0 -> off + h * bmp_stride w 8 <= Z.of_nat (length data) -> rd data off = Some b -> bmp_read mem data image = None.
Proof. exact bmp_empty_table. Qed.
Print Assumptions C80_colours_refuted.

(** Volumes lose their slices but the first one. *)
Theorem C80_volume_refuted : forall mem junk im image, wf_img im -> wf_img image -> typed_img UINT8 im -> 2 <= depth im -> width im < 2 ^ 31 -> height im < 2 ^ 31 ->
  exists out, bmp_read mem (bmp_write junk im) image = Some (1, out) /\ depth out = 1 /\ out <> im.
Proof.
  intros mem junk im image W Wi T Hd Hw Hh. rewrite bmp_roundtrip by (try assumption; lia). eexists. split; [reflexivity|]. split; [reflexivity|]. intros E. rewrite <- E in Hd. unfold depth in Hd. cbn in Hd. lia.
Qed.
Print Assumptions C80_volume_refuted.

Example C80_case : let im := Img (Dims 3 2 1) [0; 10; 255; 35; 80; 7] in wf_img im /\ typed_img UINT8 im /\ bmp_read (fun _ => 77) (bmp_write (fun _ => 88) im) (Img (Dims 1 1 1) [9]) = Some (1, im).
Proof. cbv zeta. split; [split; [unfold wf_dims; cbn; lia|reflexivity]|]. split; [repeat constructor; unfold inty; cbn; lia|]. vm_compute. reflexivity. Qed.
Example C80_rgb_case : let im := Rgb3 (Dims 3 2 1) [1; 2; 3; 4; 5; 6] [11; 12; 13; 14; 15; 16] [21; 22; 23; 24; 25; 26] in
  wf_rgb im /\ bmp_read_rgb (fun _ => 77) (bmp_write_rgb (fun _ => 88) im) (Rgb3 (Dims 0 0 0) [] [] []) = Some (1, im).
Proof. cbv zeta. split; [repeat split; cbn; lia|]. vm_compute. reflexivity. Qed.
(** An 8-bit file with a table of two colours, with pixels 1 0. *)
Example C80_read_case : let data := [66; 77] ++ repeat 0 8 ++ [62; 0; 0; 0] ++ [40; 0; 0; 0] ++ [2; 0; 0; 0] ++ [1; 0; 0; 0] ++ [1; 0; 8; 0] ++ repeat 0 16 ++ [2; 0; 0; 0] ++ repeat 0 4 ++ [0; 0; 0; 0; 10; 20; 60; 0] ++ [1; 0; 0; 0] in
  bmp_head data 2 1 8 62 /\ bmp_table data 2 (fun i => if i =? 0 then (0, 0, 0) else (60, 20, 10)) /\ bmp_pixels8 data 2 1 62 (fun x _ => 1 - x) /\
  bmp_read (fun _ => 77) data (Img (Dims 0 0 0) []) = Some (1, Img (Dims 2 1 1) [30; 0]).
Proof.
  cbv zeta. split; [|split; [|split]].
  - repeat split; try reflexivity; repeat eexists; reflexivity.
  - split; [repeat eexists; reflexivity|]. intros i Hi. assert (i = 0 \/ i = 1) as [-> | ->] by lia; repeat eexists; reflexivity.
  - split; [vm_compute; discriminate|]. intros x y Hx Hy. assert (y = 0) as -> by lia. assert (x = 0 \/ x = 1) as [-> | ->] by lia; reflexivity.
  - vm_compute. reflexivity.
Qed.

(** ** C81.  RAW files: reading back with the sizes of the image gives it, for every type and in three dimensions. *)
Theorem C81_roundtrip : forall t mem im image, wf_img im -> wf_img image -> typed_img t im -> nonempty im ->
  raw_read t mem (raw_write t im) (width im) (height im) (depth im) image = (1, im).
Proof.
  intros t mem im image W Wi T Ne. rewrite raw_roundtrip by assumption. f_equal. destruct W as (_ & L). unfold nonempty in Ne. rewrite L. destruct (Z.eqb_spec (dw (sz im) * dh (sz im) * dd (sz im)) 0) as [Q|Q]; [nia|reflexivity].
Qed.
Print Assumptions C81_roundtrip.

(** The number of bytes is the number of pixels times the number of bytes of the type; little-endian. *)
Theorem C81_bytes : forall t im i v k, rd (pixs im) i = Some v -> 0 <= k < nbits t / 8 -> rd (raw_write t im) (i * (nbits t / 8) + k) = Some ((v / 256 ^ k) mod 256).
Proof. exact raw_bytes. Qed.
Print Assumptions C81_bytes.

(** A file that is too short is accepted. *)
Theorem C81_short_refuted : forall mem, raw_read UINT16 mem [1; 0; 2] 2 1 1 (Img (Dims 0 0 0) []) = (1, Img (Dims 2 1 1) [1; mem 1]).
Proof. intros mem. vm_compute. reflexivity. Qed.
Print Assumptions C81_short_refuted.

Example C81_case : let im := Img (Dims 2 1 2) [-3; 400; -32768; 32767] in
  wf_img im /\ typed_img INT16 im /\ nonempty im /\ raw_write INT16 im = [253; 255; 144; 1; 0; 128; 255; 127] /\ raw_read INT16 (fun _ => 9) (raw_write INT16 im) 2 1 2 (Img (Dims 1 1 1) [3]) = (1, im).
Proof. cbv zeta. split; [split; [unfold wf_dims; cbn; lia|reflexivity]|]. split; [repeat constructor; unfold inty; cbn; lia|]. split; [unfold nonempty; cbn; lia|]. split; vm_compute; reflexivity. Qed.

(** ** C82.  VTK files, UINT8 and UINT16: reading back gives the image, if the first byte of the values (the most significant byte
    of the first pixel of the last line of the first slice) is not a line end, not the sign # and not a letter. *)
Theorem C82_roundtrip_partial : forall fuel t mem im image v0 b, t = UINT8 \/ t = UINT16 -> wf_img im -> wf_img image -> typed_img t im -> width im * height im * depth im < 2 ^ 31 ->
  pixel_is im 0 (height im - 1) 0 v0 -> b = v0 / 2 ^ (nbits t - 8) -> b <> 10 -> b <> 35 -> ~ (65 <= b <= 90) -> ~ (97 <= b <= 122) -> (11 <= fuel)%nat ->
  vtk_read fuel t mem (vtk_write t im) image = Some (Some (1, im)).
Proof.
  intros fuel t mem im image v0 b K W Wi T Hn P Eb B1 B2 B3 B4 F. apply (vtk_roundtrip fuel t mem im image v0 b); try assumption.
  - assert (Iv : inty t v0) by (unfold typed_img in T; rewrite Forall_forall in T; apply T; destruct P as (_ & R); eapply rd_In; exact R). subst b. destruct K as [-> | ->]; unfold inty, tmin, tmax in Iv; cbn in Iv.
    + change (nbits UINT8 - 8) with 0. change (2 ^ 0) with 1. rewrite Z.div_1_r. unfold venc, encode. change (rd (rev (le_bytes (tbytes UINT8) v0)) 0) with (Some (v0 mod 256)). rewrite Z.mod_small by lia. reflexivity.
    + change (2 ^ (nbits UINT16 - 8)) with 256. unfold venc, encode. change (rd (rev (le_bytes (tbytes UINT16) v0)) 0) with (Some ((v0 / 256) mod 256)). rewrite Z.mod_small; [reflexivity|]. split; [apply Z.div_pos; lia|apply Z.div_lt_upper_bound; lia].
  - unfold plain_byte. lia.
Qed.
Print Assumptions C82_roundtrip_partial.

(** False in general.  A line end there is taken for an empty line of the header, of which the program reads the first word ... *)
Theorem C82_newline_refuted : forall fuel mem im image, wf_img im -> width im * height im * depth im < 2 ^ 31 -> pixel_is im 0 (height im - 1) 0 10 -> (11 <= fuel)%nat ->
  vtk_read fuel UINT8 mem (vtk_write UINT8 im) image = None.
Proof. intros fuel mem im image W Hn P F. apply (vtk_newline fuel UINT8 mem im image 10); try assumption; [left; reflexivity|reflexivity]. Qed.
Print Assumptions C82_newline_refuted.

(** ... pixels that start with a letter are taken for a line of the header and dropped ... *)
Theorem C82_letter_refuted : forall mem, let im := Img (Dims 3 1 1) [65; 10; 7] in
  wf_img im /\ typed_img UINT8 im /\ vtk_read 20 UINT8 mem (vtk_write UINT8 im) (Img (Dims 0 0 0) []) = Some (Some (1, Img (Dims 3 1 1) [7; mem 1; mem 2])).
Proof. intros mem. cbv zeta. split; [split; [unfold wf_dims; cbn; lia|reflexivity]|]. split; [repeat constructor; unfold inty; cbn; lia|]. vm_compute. reflexivity. Qed.
Print Assumptions C82_letter_refuted.

(** ... and the name of the type is left empty for the other types: the file that is written cannot be read. *)
Theorem C82_type_refuted : forall fuel t mem im image, t = INT8 \/ t = INT16 \/ t = UINT32 -> wf_img im -> width im < 2 ^ 31 -> height im < 2 ^ 31 -> depth im < 2 ^ 31 ->
  width im * height im * depth im < 2 ^ 31 -> (10 <= fuel)%nat -> vtk_read fuel t mem (vtk_write t im) image = None.
Proof. intros fuel t mem im image K W Hw Hh Hd Hn F. apply vtk_unnamed; try assumption. intros [-> | ->]; destruct K as [K|[K|K]]; discriminate. Qed.
Print Assumptions C82_type_refuted.

Example C82_case : let im := Img (Dims 2 2 2) [256; 2; 300; 4; 5; 65535; 7; 10] in
  wf_img im /\ typed_img UINT16 im /\ pixel_is im 0 (height im - 1) 0 300 /\ 300 / 2 ^ (nbits UINT16 - 8) = 1 /\ vtk_read 11 UINT16 (fun _ => 9) (vtk_write UINT16 im) (Img (Dims 1 1 1) [3]) = Some (Some (1, im)).
Proof. cbv zeta. split; [split; [unfold wf_dims; cbn; lia|reflexivity]|]. split; [repeat constructor; unfold inty; cbn; lia|]. split; [split; [unfold inside; cbn; lia|reflexivity]|]. split; vm_compute; reflexivity. Qed.

(** ** C83.  Stacks.  If the files of a kind give back 2-D images, then the files that are written for the slices of a volume under
    different names give back the volume, under every order of the copies; other files are left alone. *)
Theorem C83_stack_partial : forall sched image wrf rf names, legal_sched sched -> wf_img image -> nonempty image -> small (sz image) ->
  Z.of_nat (length names) = depth image -> depth image < 2 ^ 32 -> NoDup names ->
  (forall k name s old, rd names k = Some name -> slice_of image k s -> wf_img old -> rf (wrf name s) old = Some (Some (1, s))) ->
  forall mem fs0 out, wf_img out -> exists fs, stack_write wrf mem sched fs0 image names = Some (1, fs) /\
    (forall name, ~ In name names -> fs name = fs0 name) /\ stack_read rf mem sched fs names out = Some (Some (1, image)).
Proof. intros. eapply stack_roundtrip; eassumption. Qed.
Print Assumptions C83_stack_partial.

Theorem C83_pgm_stack : forall fuel vs sched image names mem mem' fs0 out, legal_sched sched -> wf_img image -> nonempty image -> small (sz image) ->
  width image * height image < 2 ^ 31 -> Z.of_nat (length names) = depth image -> depth image < 2 ^ 32 -> NoDup names -> Forall no_newline names -> (2 <= fuel)%nat -> wf_img out ->
  exists fs, stack_write pgm_write mem sched fs0 image names = Some (1, fs) /\
    (forall name, ~ In name names -> fs name = fs0 name) /\ stack_read (pgm_read fuel vs mem') mem sched fs names out = Some (Some (1, image)).
Proof.
  intros fuel vs sched image names mem mem' fs0 out HS W Ne Sm Hn Ln Hd ND NL F Wo. assert (N2 := Ne). destruct N2 as (N1 & N2 & N3).
  assert (Bw : width image < 2 ^ 31 /\ height image < 2 ^ 31) by (unfold width, height in *; nia).
  apply (C83_stack_partial sched image pgm_write (pgm_read fuel vs mem') names HS W Ne Sm Ln Hd ND); [|exact Wo]. intros k name s old R (Ws & Es & _) Wold.
  apply C78_roundtrip_partial; try assumption; unfold width, height, depth in *; rewrite ?Es; cbn [dw dh dd]; try lia. rewrite Forall_forall in NL. apply NL. eapply rd_In. exact R.
Qed.
Print Assumptions C83_pgm_stack.

Theorem C83_bmp_stack : forall junk sched image names mem mem' fs0 out, legal_sched sched -> wf_img image -> nonempty image -> small (sz image) -> typed_img UINT8 image ->
  width image < 2 ^ 31 -> height image < 2 ^ 31 -> Z.of_nat (length names) = depth image -> depth image < 2 ^ 32 -> NoDup names -> wf_img out ->
  exists fs, stack_write (fun _ => bmp_write junk) mem sched fs0 image names = Some (1, fs) /\
    (forall name, ~ In name names -> fs name = fs0 name) /\ stack_read (fun data im => option_map Some (bmp_read mem' data im)) mem sched fs names out = Some (Some (1, image)).
Proof.
  intros junk sched image names mem mem' fs0 out HS W Ne Sm T Hw Hh Ln Hd ND Wo.
  apply (C83_stack_partial sched image (fun _ => bmp_write junk) _ names HS W Ne Sm Ln Hd ND); [|exact Wo]. intros k name s old R S Wold. pose proof S as (Ws & Es & _). pose proof (rd_Some_range _ _ _ R).
  rewrite C80_roundtrip_partial; [reflexivity|exact Ws|exact Wold|apply (slice_typed UINT8 image k s W ltac:(lia) T S)|unfold depth; rewrite Es; reflexivity|unfold width in *; rewrite Es; exact Hw|unfold height in *; rewrite Es; exact Hh].
Qed.
Print Assumptions C83_bmp_stack.

(** Under equal names, the last slice replaces the others. *)
Theorem C83_names_refuted : forall mem, let image := Img (Dims 2 1 2) [1; 2; 3; 4] in
  exists fs, stack_write pgm_write mem (fun l => l) (fun _ => None) image [[97]; [97]] = Some (1, fs) /\
    stack_read (pgm_read 2 16 mem) mem (fun l => l) fs [[97]; [97]] (Img (Dims 0 0 0) []) = Some (Some (1, Img (Dims 2 1 2) [3; 4; 3; 4])).
Proof. intros mem. cbv zeta. eexists. split; [vm_compute; reflexivity|]. vm_compute. reflexivity. Qed.
Print Assumptions C83_names_refuted.

Example C83_case : let image := Img (Dims 2 1 2) [1; 2; 3; 4] in
  wf_img image /\ nonempty image /\ NoDup [[97]; [98]] /\ Forall no_newline [[97]; [98]] /\
  exists fs, stack_write pgm_write (fun _ => 9) (fun l => l) (fun _ => None) image [[97]; [98]] = Some (1, fs) /\
    stack_read (pgm_read 2 16 (fun _ => 9)) (fun _ => 9) (fun l => l) fs [[97]; [98]] (Img (Dims 0 0 0) []) = Some (Some (1, image)).
Proof.
  cbv zeta. split; [split; [unfold wf_dims; cbn; lia|reflexivity]|]. split; [unfold nonempty; cbn; lia|]. split; [repeat constructor; cbn; intuition congruence|]. split; [repeat constructor; intros Q; cbn in Q; lia|].
  eexists. split; [vm_compute; reflexivity|]. vm_compute. reflexivity.
Qed.
