(** C44 and C72 to C74: lines, rectangles, boxes, discs, balls, circles and patterns. *)
From Verif Require Export Proofs.DrawProofs5.

(** An image of zeros, and what is not 0 in an image. *)
Definition blank (w h d : Z) : img := Img (Dims w h d) (repeat 0 (Z.to_nat (w * h * d))).
Definition drawn (r : option (Z * img)) : option (list Z) := option_map (fun p => filter (fun a => negb (znth 0 (pixs (snd p)) a =? 0)) (zseq (Z.of_nat (length (pixs (snd p)))))) r.

Lemma blank_wf w h d : 0 <= w -> 0 <= h -> 0 <= d -> wf_img (blank w h d).
Proof. intros. split; [cbn; unfold wf_dims; cbn; lia|]. cbn [blank pixs sz dw dh dd]. rewrite repeat_length, Z2Nat.id; [reflexivity|nia]. Qed.

(** *** C44: lines *)

(** Oblique lines, wherever they are, and the vertical and horizontal ones that are inside or wholly beside the image. *)
Theorem C44_line_partial v im x0 y0 x1 y1 : wf_img im -> 0 < width im < 2 ^ 31 -> 0 < height im < 2 ^ 31 -> 0 < depth im ->
  small_int x0 -> small_int y0 -> small_int x1 -> small_int y1 -> line_clipped (width im) (height im) x0 y0 x1 y1 ->
  exists im', drawLine im x0 y0 x1 y1 v = Some (1, im') /\ painted v (fun x y z => z = 0 /\ segment x0 y0 x1 y1 x y) im im'.
Proof. apply drawLine_ok. Qed.
Print Assumptions C44_line_partial.

(** A vertical line that leaves the image by the bottom or the top, and a point above it, are written outside the memory
    of the image; a horizontal line that leaves it by the right goes on in the next row. *)
Theorem C44_line_refuted :
  drawLine (blank 4 4 1) 1 1 1 5 9 = None /\ drawLine (blank 4 4 1) 1 (-1) 1 2 9 = None /\ drawLine (blank 4 4 1) 1 (-1) 1 (-1) 9 = None /\
  exists im', drawLine (blank 4 4 1) 2 1 5 1 9 = Some (1, im') /\ pixel_is im' 0 2 0 9 /\ pixel_is im' 1 2 0 9 /\
    ~ segment 2 1 5 1 0 2 /\ ~ painted 9 (fun x y z => z = 0 /\ segment 2 1 5 1 x y) (blank 4 4 1) im'.
Proof.
  split; [reflexivity|]. split; [reflexivity|]. split; [reflexivity|]. eexists. split; [reflexivity|].
  assert (~ segment 2 1 5 1 0 2) as N. { unfold segment, segment_from. cbn. lia. }
  split; [split; [unfold inside; cbn; lia|reflexivity]|]. split; [split; [unfold inside; cbn; lia|reflexivity]|]. split; [exact N|].
  intros (_ & _ & H). destruct (H 0 2 0 0 9) as [((_ & S) & _)|(_ & E)]; [split; [unfold inside; cbn; lia|reflexivity]|split; [unfold inside; cbn; lia|reflexivity]| |discriminate].
  exact (N S).
Qed.
Print Assumptions C44_line_refuted.

(** *** C44: rectangles *)

(** Filled: the columns inside the image; the rows may go out on both sides, but not all be above it. *)
Theorem C44_rectangle_partial v im x0 y0 w h z : wf_img im -> 0 < width im < 2 ^ 31 -> 0 < height im < 2 ^ 31 -> 0 <= z < depth im ->
  0 <= x0 -> 0 <= w -> x0 + w <= width im -> - 2 ^ 31 <= y0 < 2 ^ 31 -> 0 <= h < 2 ^ 63 -> 0 < y0 + h ->
  exists im', drawRectangle im x0 y0 w h v true z = Some (1, im') /\ painted v (rect x0 y0 w h z) im im'.
Proof. apply rectangle_fill_ok. Qed.
Print Assumptions C44_rectangle_partial.

(** Outlines: inside the image. *)
Theorem C44_outline_partial v im x0 y0 w h z : wf_img im -> width im < 2 ^ 31 -> height im < 2 ^ 31 -> 0 <= z < depth im ->
  0 <= x0 -> 0 < w -> x0 + w <= width im -> 0 <= y0 -> 0 < h -> y0 + h <= height im ->
  exists im', drawRectangle im x0 y0 w h v false z = Some (1, im') /\ painted v (outline x0 y0 w h z) im im'.
Proof. apply rectangle_outline_ok. Qed.
Print Assumptions C44_outline_partial.

(** The width is not clipped: what is beyond the right side goes to the next row, or outside the memory on the last row.
    A rectangle that begins on the left of the image is moved to the right.  A rectangle above the image fills it.
    An outline that goes below the image is closed on its last row; one wholly below is outside the line table. *)
Theorem C44_rectangle_refuted :
  drawn (drawRectangle (blank 4 4 1) 2 1 3 1 9 true 0) = Some [6; 7; 8] /\
  drawRectangle (blank 4 4 1) 2 3 3 1 9 true 0 = None /\
  drawn (drawRectangle (blank 4 4 1) (-2) 1 3 1 9 true 0) = Some [4; 5; 6] /\
  drawn (drawRectangle (blank 4 4 1) 0 (-3) 4 2 9 true 0) = Some (zseq 16) /\
  drawn (drawRectangle (blank 4 4 1) 0 2 4 5 9 false 0) = Some [8; 9; 10; 11; 12; 13; 14; 15] /\
  drawRectangle (blank 4 4 1) 0 5 2 2 9 false 0 = None.
Proof. repeat split; vm_compute; reflexivity. Qed.
Print Assumptions C44_rectangle_refuted.

Theorem C44_rectangle_spill_refuted :
  exists im', drawRectangle (blank 4 4 1) 2 1 3 1 9 true 0 = Some (1, im') /\ ~ painted 9 (rect 2 1 3 1 0) (blank 4 4 1) im'.
Proof.
  eexists. split; [vm_compute; reflexivity|]. intros (_ & _ & H).
  destruct (H 0 2 0 0 9) as [(S & _)|(_ & E)]; [split; [unfold inside; cbn; lia|reflexivity]|split; [unfold inside; cbn; lia|reflexivity]| |discriminate].
  unfold rect in S. lia.
Qed.
Print Assumptions C44_rectangle_spill_refuted.

(** *** C44: boxes *)

(** Inside the image: the box, or its six faces. *)
Theorem C44_box_partial v im x0 y0 z0 w h d fill : wf_img im -> width im < 2 ^ 31 -> height im < 2 ^ 31 -> depth im < 2 ^ 63 ->
  0 <= x0 -> 0 < w -> x0 + w <= width im -> 0 <= y0 -> 0 < h -> y0 + h <= height im -> 0 <= z0 -> 0 < d -> z0 + d <= depth im ->
  exists im', drawBox im x0 y0 z0 w h d v fill = Some (1, im') /\
    painted v (if fill then box3 x0 y0 z0 w h d else box_faces x0 y0 z0 w h d) im im'.
Proof.
  intros. destruct (drawBox_ok v im x0 y0 z0 w h d fill) as (im' & E & P); try assumption. exists im'. split; [exact E|]. destruct fill; exact P.
Qed.
Print Assumptions C44_box_partial.

(** Deeper than the image: the part inside is drawn, and yet the result is an error. *)
Theorem C44_box_deep_partial v im x0 y0 z0 w h d fill : wf_img im -> width im < 2 ^ 31 -> height im < 2 ^ 31 -> depth im < 2 ^ 63 ->
  0 <= x0 -> 0 < w -> x0 + w <= width im -> 0 <= y0 -> 0 < h -> y0 + h <= height im -> 0 <= z0 < depth im -> d < 2 ^ 63 -> depth im < z0 + d ->
  exists im', drawBox im x0 y0 z0 w h d v fill = Some (-100, im') /\
    painted v (if fill then box3 x0 y0 z0 w h d else box_faces x0 y0 z0 w h d) im im'.
Proof.
  intros. destruct (drawBox_deep v im x0 y0 z0 w h d fill) as (im' & E & P); try assumption. exists im'. split; [exact E|]. destruct fill; exact P.
Qed.
Print Assumptions C44_box_deep_partial.

(** An empty box, of depth 0, is drawn: the slice given and the one before. *)
Theorem C44_box_refuted : exists im', drawBox (blank 2 1 3) 0 0 1 1 1 0 9 true = Some (1, im') /\ pixs im' = [9; 0; 9; 0; 0; 0] /\
  ~ painted 9 (box3 0 0 1 1 1 0) (blank 2 1 3) im'.
Proof.
  eexists. split; [vm_compute; reflexivity|]. split; [reflexivity|]. intros (_ & _ & H).
  destruct (H 0 0 1 0 9) as [(S & _)|(_ & E)]; [split; [unfold inside; cbn; lia|reflexivity]|split; [unfold inside; cbn; lia|reflexivity]| |discriminate].
  unfold box3 in S. lia.
Qed.
Print Assumptions C44_box_refuted.

(** *** C44: discs and balls, wherever they are *)

Theorem C44_disc_partial v im x0 y0 z r : wf_img im -> width im < 2 ^ 31 -> height im < 2 ^ 31 -> 0 <= z < depth im ->
  - 2 ^ 30 <= x0 < 2 ^ 30 -> - 2 ^ 30 <= y0 < 2 ^ 30 -> - 2 ^ 15 < r < 2 ^ 15 ->
  exists im', drawDisc im x0 y0 z r v = Some (1, im') /\ painted v (disc x0 y0 z r) im im'.
Proof. apply drawDisc_ok. Qed.
Print Assumptions C44_disc_partial.

Theorem C44_sphere_partial v im x0 y0 z0 r : wf_img im -> width im < 2 ^ 31 -> height im < 2 ^ 31 -> depth im < 2 ^ 31 ->
  - 2 ^ 30 <= x0 < 2 ^ 30 -> - 2 ^ 30 <= y0 < 2 ^ 30 -> - 2 ^ 30 <= z0 < 2 ^ 30 -> - 26754 <= r <= 26754 ->
  exists im', drawSphere im x0 y0 z0 r v = Some (1, im') /\ painted v (ball x0 y0 z0 r) im im'.
Proof. apply drawSphere_ok. Qed.
Print Assumptions C44_sphere_partial.

(** Larger radii overflow: the square of 46341 is not an [int]. *)
Theorem C44_disc_refuted v im x0 y0 z : 0 <= z < depth im -> drawDisc im x0 y0 z 46341 v = None.
Proof.
  intros Hz. unfold drawDisc. replace (negb (z <? depth im)) with false by lia.
  destruct (all_some _) as [l|] eqn:E; [|reflexivity]. exfalso. cbn [map all_some] in E.
  change (int_ck (46341 * 46341)) with (@None Z) in E.
  destruct (int_ck (x0 - 46341)); [|discriminate]. destruct (int_ck (y0 - 46341)); [|discriminate].
  destruct (int_ck (x0 + 46341)); [|discriminate]. destruct (int_ck (y0 + 46341)); discriminate.
Qed.
Print Assumptions C44_disc_refuted.

(** The hypotheses are met by shapes partly outside, and what is drawn is the right set of pixels. *)
Example C44_case :
  (line_clipped 5 4 (-1) (-1) 6 3 /\ drawn (drawLine (blank 5 4 1) (-1) (-1) 6 3 9) = Some [0; 1; 7; 8; 14]) /\
  (0 < -1 + 3 /\ drawn (drawRectangle (blank 5 4 1) 1 (-1) 2 3 9 true 0) = Some [1; 2; 6; 7]) /\
  drawn (drawRectangle (blank 5 4 1) 1 0 3 3 9 false 0) = Some [1; 2; 3; 6; 8; 11; 12; 13] /\
  drawn (drawDisc (blank 5 4 1) 0 0 0 2 9) = Some [0; 1; 2; 5; 6; 10] /\
  drawn (drawBox (blank 2 2 3) 0 0 0 2 1 3 9 false) = Some [0; 1; 4; 5; 8; 9] /\
  drawn (drawSphere (blank 2 2 3) 0 0 1 1 9) = Some [0; 4; 5; 6; 8].
Proof. split; [split; [unfold line_clipped; lia|vm_compute; reflexivity]|]. split; [split; [lia|vm_compute; reflexivity]|]. repeat split; vm_compute; reflexivity. Qed.

(** *** C72: the points of a line go from the first end to the second *)

(** The points are those of the digital segment, without clipping. *)
Theorem C72_points p1x p1y p2x p2y : small_int p1x -> small_int p1y -> small_int p2x -> small_int p2y ->
  exists ps, bresenhamPoints p1x p1y p2x p2y 0 0 = Some ps /\ forall x y, In (x, y) ps <-> segment p1x p1y p2x p2y x y.
Proof.
  intros. destruct (bresenham_ok p1x p1y p2x p2y 0 0) as (ps & E & P); try assumption. exists ps. split; [exact E|].
  intros x y. rewrite P. unfold passed. split; [tauto|]. intros S. split; [exact S|]. destruct (_ =? _); [tauto|]. destruct (_ =? _); tauto.
Qed.
Print Assumptions C72_points.

(** They are neighbours in turn and go from p1 to p2, if the line is oblique, or goes down, or to the right. *)
Theorem C72_order_partial p1x p1y p2x p2y : small_int p1x -> small_int p1y -> small_int p2x -> small_int p2y ->
  (p1x <> p2x /\ p1y <> p2y) \/ (p1x = p2x /\ p1y <= p2y) \/ (p1y = p2y /\ p1x <= p2x) ->
  exists ps, bresenhamPoints p1x p1y p2x p2y 0 0 = Some ps /\ walk (p1x, p1y) (p2x, p2y) ps.
Proof. apply bresenham_walk. Qed.
Print Assumptions C72_order_partial.

(** Otherwise they come backwards, for every vertical line upwards and every horizontal one to the left. *)
Theorem C72_order_refuted x y n : small_int x -> small_int y -> 0 < n -> small_int (x - n) -> small_int (y - n) ->
  (exists ps, bresenhamPoints x y x (y - n) 0 0 = Some ps /\ hd_error ps = Some (x, y - n)) /\
  (exists ps, bresenhamPoints x y (x - n) y 0 0 = Some ps /\ hd_error ps = Some (x - n, y)).
Proof.
  unfold small_int. intros Hx Hy Hn Hxn Hyn. split.
  - eexists. split.
    + unfold bresenhamPoints. replace (x >? x) with false by lia. rewrite Z.eqb_refl. rewrite int_ck_ok by lia. reflexivity.
    + unfold bres_vertical. replace (y >? y - n) with true by lia. cbn. rewrite zrange_cons by lia. reflexivity.
  - eexists. split.
    + unfold bresenhamPoints. replace (x >? x - n) with true by lia. cbn iota beta. replace (x - n =? x) with false by lia. rewrite Z.eqb_refl. rewrite int_ck_ok by lia. reflexivity.
    + unfold bres_horizontal. cbn. rewrite zrange_cons by lia. reflexivity.
Qed.
Print Assumptions C72_order_refuted.

Example C72_case : bresenhamPoints 5 3 0 1 0 0 = Some [(5, 3); (4, 3); (3, 2); (2, 2); (1, 1); (0, 1)] /\
  bresenhamPoints 0 0 2 5 0 0 = Some [(0, 0); (0, 1); (1, 2); (1, 3); (2, 4); (2, 5)] /\ small_int 5 /\ small_int 0.
Proof. split; [reflexivity|]. split; [reflexivity|]. unfold small_int. lia. Qed.

(** *** C73: circles *)

(** What is drawn is the mirror image of an arc of the octant, in the band r^2 - 3r/2 <= x^2 + y^2 <= r^2 + r/2, one pixel in
    each column and without gaps; where it leaves the image it is clipped. *)
Theorem C73_circle_partial v im x0 y0 r zs fuel : wf_img im -> width im < 2 ^ 31 -> height im < 2 ^ 31 -> 0 <= zs < depth im ->
  small_int x0 -> small_int y0 -> 0 <= r < 2 ^ 26 -> r < Z.of_nat fuel ->
  exists im' X Y, drawCircle fuel im x0 y0 r v zs = Some (Some (1, im')) /\ arc r 0 r X Y /\
    painted v (fun a b z => z = zs /\ exists i, 0 <= i <= X /\ mirrored x0 y0 i (Y i) a b) im im'.
Proof. apply drawCircle_ok. Qed.
Print Assumptions C73_circle_partial.

(** But the circle is too small: some pixels are at more than half a pixel from the circle of radius r. *)
Theorem C73_circle_refuted : exists im', drawCircle 6 (blank 11 11 1) 5 5 5 9 0 = Some (Some (1, im')) /\
  pixel_is im' (5 + 2) (5 + 4) 0 9 /\ ~ (2 * 5 - 1) ^ 2 <= 4 * (2 ^ 2 + 4 ^ 2).
Proof. eexists. split; [vm_compute; reflexivity|]. split; [split; [unfold inside; cbn; lia|reflexivity]|lia]. Qed.
Print Assumptions C73_circle_refuted.

Example C73_case : small_int 5 /\ 0 <= 3 < 2 ^ 26 /\ drawn (option_bind (drawCircle 4 (blank 5 4 1) 0 0 3 9 0) (fun r => r)) = Some [3; 8; 12; 15; 16].
Proof. split; [unfold small_int; lia|]. split; [lia|]. vm_compute. reflexivity. Qed.

(** *** C74: copyPattern *)

(** Without a limit on the number of tiles, for every order of the rows in the parallel loops: the first slice is tiled. *)
Theorem C74_pattern_partial sched imIn x0 y0 w h imOut nx ny : wf_img imIn -> wf_img imOut ->
  (forall k n, Permutation (sched k (zseq n)) (zseq n)) ->
  0 < w -> 0 < h -> 0 <= x0 -> x0 + w <= width imIn -> 0 <= y0 -> y0 + h <= height imIn -> 0 < depth imIn ->
  0 < width imOut < 2 ^ 31 -> h <= height imOut < 2 ^ 31 -> 0 < depth imOut ->
  width imOut <= nx * w -> height imOut <= ny * h ->
  exists im', copyPattern sched imIn x0 y0 w h imOut nx ny = Some (1, im') /\ tiled imIn x0 y0 w h imOut im'.
Proof. apply copyPattern_ok. Qed.
Print Assumptions C74_pattern_partial.

(** With a limit, one tile of the number asked for is cut to the size of the remainder; a pattern higher than the output is
    written outside it. *)
Theorem C74_pattern_refuted :
  let sq := Img (Dims 2 2 1) [1; 2; 3; 4] in
  drawn (copyPattern (fun _ l => l) sq 0 0 2 2 (blank 5 4 1) 2 2) = Some [0; 1; 2; 5; 6; 7; 10; 11; 12; 15; 16; 17] /\
  copyPattern (fun _ l => l) sq 0 0 2 2 (blank 2 1 1) 1 1 = None.
Proof. split; vm_compute; reflexivity. Qed.
Print Assumptions C74_pattern_refuted.

Example C74_case : let sq := Img (Dims 2 2 1) [1; 2; 3; 4] in
  wf_img sq /\ 5 <= 3 * 2 /\ 3 <= 2 * 2 /\ option_map (fun p => pixs (snd p)) (copyPattern (fun _ l => rev l) sq 0 0 2 2 (blank 5 3 1) 3 2) =
    Some [1; 2; 1; 2; 1; 3; 4; 3; 4; 3; 1; 2; 1; 2; 1].
Proof. split; [split; [unfold wf_dims; cbn; lia|reflexivity]|]. split; [lia|]. split; [lia|]. vm_compute. reflexivity. Qed.
