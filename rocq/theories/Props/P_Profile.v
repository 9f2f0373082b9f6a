(** C123: the values along a line. *)
From Verif Require Export Proofs.ProfileProofs Props.P_Draw.

(** *** C123: profile *)

(** The values are those of the pixels of the digital segment that are in the image: oblique lines, whatever their ends, and
    vertical and horizontal ones that are inside or wholly beside the image. *)
Theorem C123_values_partial im x0 y0 x1 y1 z : wf_img im -> 0 < width im < 2 ^ 31 -> 0 < height im < 2 ^ 31 -> 0 <= z < depth im ->
  0 <= x0 < 2 ^ 28 -> 0 <= y0 < 2 ^ 28 -> 0 <= x1 < 2 ^ 28 -> 0 <= y1 < 2 ^ 28 -> line_clipped (width im) (height im) x0 y0 x1 y1 ->
  exists ps vs, profile im x0 y0 x1 y1 z = Some vs /\ Forall2 (fun p v => pixel_is im (fst p) (snd p) z v) ps vs /\
    forall x y, In (x, y) ps <-> segment x0 y0 x1 y1 x y /\ inside (sz im) x y z.
Proof.
  intros W Hw Hh Hz B1 B2 B3 B4 C. destruct (profile_points im x0 y0 x1 y1 z W Hw Hh Hz B1 B2 B3 B4 C) as (ps & vs & E & F & I & _). exists ps, vs. auto.
Qed.
Print Assumptions C123_values_partial.

(** Between two pixels of the image there are as many values as the larger of the two distances, plus one, and they are read
    from neighbour to neighbour; from the first pixel to the second if the line is oblique, or goes down, or to the right. *)
Theorem C123_order_partial im x0 y0 x1 y1 z : wf_img im -> width im < 2 ^ 28 -> height im < 2 ^ 28 ->
  inside (sz im) x0 y0 z -> inside (sz im) x1 y1 z ->
  exists ps vs, profile im x0 y0 x1 y1 z = Some vs /\ Forall2 (fun p v => pixel_is im (fst p) (snd p) z v) ps vs /\
    Z.of_nat (length vs) = Z.max (Z.abs (x1 - x0)) (Z.abs (y1 - y0)) + 1 /\
    ((x0 <> x1 /\ y0 <> y1) \/ (x0 = x1 /\ y0 <= y1) \/ (y0 = y1 /\ x0 <= x1) -> walk (x0, y0) (x1, y1) ps).
Proof.
  intros W Hw Hh (A1 & A2 & A3) (A4 & A5 & _). unfold width, height in Hw, Hh.
  destruct (profile_points im x0 y0 x1 y1 z W) as (ps & vs & E & F & _ & Q); try (unfold width, height, depth in *; lia).
  { unfold line_clipped, width, height. lia. }
  assert (small_int x0 /\ small_int y0 /\ small_int x1 /\ small_int y1) as (S1 & S2 & S3 & S4) by (unfold small_int; lia).
  specialize (Q ltac:(unfold width; lia) ltac:(unfold height; lia) ltac:(unfold width; lia) ltac:(unfold height; lia)).
  exists ps, vs. split; [exact E|]. split; [exact F|]. split.
  - replace (length vs) with (length ps) by (clear - F; induction F; cbn; congruence). apply bresenham_length; assumption.
  - intros D. destruct (bresenham_walk x0 y0 x1 y1 S1 S2 S3 S4 D) as (ps' & E' & K). congruence.
Qed.
Print Assumptions C123_order_partial.

(** For every image, a vertical line upwards and a horizontal one to the left are read from the second pixel to the first:
    the values are those of the opposite line, in the same order. *)
Theorem C123_order_refuted im x y n z : 0 <= n ->
  (0 <= y - n -> y < 2 ^ 31 -> profile im x y x (y - n) z = profile im x (y - n) x y z) /\
  (0 <= x - n -> x < 2 ^ 31 -> profile im x y (x - n) y z = profile im (x - n) y x y z).
Proof.
  intros Hn. split.
  - intros H1 H2. unfold profile.
    rewrite (to_int_id y), (to_int_id (y - n)) by lia.
    replace ((x >=? width im) || (y >=? height im) || (x >=? width im) || (y - n >=? height im)) with ((x >=? width im) || (y - n >=? height im) || (x >=? width im) || (y >=? height im)) by lia.
    assert (K : forall a b X, bresenhamPoints (to_int x) y (to_int x) (y - n) a b = X -> bresenhamPoints (to_int x) (y - n) (to_int x) y a b = X).
    { intros a b X <-. unfold bresenhamPoints. replace (to_int x >? to_int x) with false by lia. rewrite Z.eqb_refl, Z.max_comm. unfold bres_vertical.
      destruct (y >? y - n) eqn:G; destruct (y - n >? y) eqn:G'; try reflexivity; try lia. assert (n = 0) as -> by lia. replace (y - 0) with y by lia. reflexivity. }
    destruct (_ || _); rewrite (K _ _ _ eq_refl); reflexivity.
  - intros H1 H2. unfold profile.
    rewrite (to_int_id x), (to_int_id (x - n)) by lia.
    replace ((x >=? width im) || (y >=? height im) || (x - n >=? width im) || (y >=? height im)) with ((x - n >=? width im) || (y >=? height im) || (x >=? width im) || (y >=? height im)) by lia.
    assert (K : forall a b X, bresenhamPoints x (to_int y) (x - n) (to_int y) a b = X -> bresenhamPoints (x - n) (to_int y) x (to_int y) a b = X).
    { intros a b X <-. unfold bresenhamPoints. destruct (Z.gtb_spec x (x - n)); destruct (Z.gtb_spec (x - n) x); try lia; [rewrite (Z.eqb_refl (to_int y)); reflexivity|].
      assert (n = 0) as -> by lia. replace (x - 0) with x by lia. reflexivity. }
    destruct (_ || _); rewrite (K _ _ _ eq_refl); reflexivity.
Qed.
Print Assumptions C123_order_refuted.

(** A line that has been drawn is found again. *)
Theorem C123_drawn v im x0 y0 x1 y1 : wf_img im -> width im < 2 ^ 28 -> height im < 2 ^ 28 -> inside (sz im) x0 y0 0 -> inside (sz im) x1 y1 0 ->
  exists im', drawLine im x0 y0 x1 y1 v = Some (1, im') /\
    profile im' x0 y0 x1 y1 0 = Some (repeat v (Z.to_nat (Z.max (Z.abs (x1 - x0)) (Z.abs (y1 - y0)) + 1))).
Proof.
  intros W Hw Hh I0 I1. pose proof I0 as (A1 & A2 & A3). pose proof I1 as (A4 & A5 & _). unfold width, height in Hw, Hh.
  assert (C : line_clipped (width im) (height im) x0 y0 x1 y1) by (unfold line_clipped, width, height; lia).
  destruct (drawLine_ok v im x0 y0 x1 y1 W) as (im' & E & (Es & W' & P)); try (unfold width, height, depth, small_int in *; lia); [exact C|].
  exists im'. split; [exact E|].
  destruct (profile_points im' x0 y0 x1 y1 0 W') as (ps & vs & E' & F & I & Q); try (unfold width, height, depth in *; rewrite ?Es; lia).
  { unfold line_clipped, width, height. rewrite Es. lia. }
  assert (L : Z.of_nat (length ps) = Z.max (Z.abs (x1 - x0)) (Z.abs (y1 - y0)) + 1).
  { apply bresenham_length; try (unfold small_int; lia). apply Q; unfold width, height; rewrite Es; lia. }
  rewrite E'. f_equal. rewrite <- L, Nat2Z.id. clear - F I P W Es. assert (G : forall x y, In (x, y) ps -> segment x0 y0 x1 y1 x y) by (intros x y H; apply I; exact H). clear I.
  induction F as [|(x, y) u ps vs Hp F IH]; [reflexivity|]. cbn [length repeat]. f_equal; [|apply IH; intros; apply G; right; assumption].
  cbn [fst snd] in Hp. destruct (pixel_exists im x y 0 W) as (o & Po); [rewrite <- Es; apply Hp|].
  destruct (P x y 0 o u Po Hp) as [(_ & ->)|(N & _)]; [reflexivity|]. exfalso. apply N. split; [reflexivity|apply G; left; reflexivity].
Qed.
Print Assumptions C123_drawn.

(** The slice is not compared with the depth: one past the end is read outside the array of the slices, whatever the image
    and the line. *)
Theorem C123_slice_refuted im x0 y0 x1 y1 z : wf_img im -> depth im <= z -> profile im x0 y0 x1 y1 z = None.
Proof.
  intros [(_ & _ & Wd) _] Hz. unfold profile, depth in *. rewrite (slices_out (sz im) z) by lia. match goal with |- option_bind ?a _ = _ => destruct a; reflexivity end.
Qed.
Print Assumptions C123_slice_refuted.

(** A horizontal line that leaves the image by the right goes on in the next row; a vertical one that leaves it by the bottom is
    read outside the lines. *)
Definition rows43 : img := Img (Dims 4 3 1) [10; 11; 12; 13; 20; 21; 22; 23; 30; 31; 32; 33].
Theorem C123_clip_refuted : profile rows43 2 1 5 1 0 = Some [22; 23; 30; 31] /\ profile rows43 1 1 1 3 0 = None /\ profile rows43 2 2 4 2 0 = None.
Proof. repeat split; reflexivity. Qed.
Print Assumptions C123_clip_refuted.

Example C123_case : wf_img rows43 /\ inside (sz rows43) 3 2 0 /\ inside (sz rows43) 0 0 0 /\ profile rows43 3 2 0 0 0 = Some [33; 22; 21; 10] /\
  profile rows43 0 0 3 2 0 = Some [10; 21; 22; 33] /\ line_clipped 4 3 1 0 6 5 /\ profile rows43 1 0 6 5 0 = Some [11; 22; 33] /\
  profile rows43 1 2 1 0 0 = Some [11; 21; 31] /\ profile rows43 1 0 1 2 0 = Some [11; 21; 31].
Proof. split; [split; [repeat split; cbn; lia|reflexivity]|]. split; [unfold inside; cbn; lia|]. split; [unfold inside; cbn; lia|]. repeat split; try reflexivity. unfold line_clipped. lia. Qed.
