From Verif Require Export Proofs.DrawProofs.
From Coq Require Import Lia.

(** *** Boxes *)

Definition slice_shape (x0 y0 w h : Z) (p : bool * Z) : Z -> Z -> Z -> Prop :=
  if fst p then rect x0 y0 w h (snd p) else outline x0 y0 w h (snd p).

Lemma rectangle_ok v im x0 y0 w h p : wf_img im -> width im < 2 ^ 31 -> height im < 2 ^ 31 -> 0 <= snd p < depth im ->
  0 <= x0 -> 0 < w -> x0 + w <= width im -> 0 <= y0 -> 0 < h -> y0 + h <= height im ->
  exists im', drawRectangle im x0 y0 w h v (fst p) (snd p) = Some (1, im') /\ painted v (slice_shape x0 y0 w h p) im im'.
Proof.
  intros. unfold slice_shape. destruct (fst p); [apply rectangle_fill_ok|apply rectangle_outline_ok]; try assumption; lia.
Qed.

Lemma draw_slices_ok v x0 y0 w h s todo im : wf_img im -> sz im = s -> dw s < 2 ^ 31 -> dh s < 2 ^ 31 ->
  0 <= x0 -> 0 < w -> x0 + w <= dw s -> 0 <= y0 -> 0 < h -> y0 + h <= dh s ->
  (forall p, In p todo -> 0 <= snd p < dd s) ->
  exists im', draw_slices im x0 y0 w h v todo = Some (1, im') /\
    painted v (fun x y z => exists p, In p todo /\ slice_shape x0 y0 w h p x y z) im im'.
Proof.
  intros W Es H1 H2 H3 H4 H5 H6 H7 H8. revert im W Es. induction todo as [|p todo IH]; intros im W Es HZ; cbn [draw_slices].
  - exists im. split; [reflexivity|]. apply painted_refl; [exact W|]. intros x y z _ (p & [] & _).
  - destruct p as (f, z). destruct (rectangle_ok v im x0 y0 w h (f, z)) as (im1 & E1 & P1); unfold width, height, depth; rewrite ?Es; try assumption.
    + apply HZ. left. reflexivity.
    + cbn [fst snd] in E1. rewrite E1. cbn [option_bind fst snd]. cbn.
      destruct (IH im1) as (im2 & E2 & P2); [exact (painted_wf _ _ _ _ P1)|rewrite (painted_sz _ _ _ _ P1); exact Es|intros q Hq; apply HZ; right; exact Hq|].
      rewrite E2. exists im2. split; [reflexivity|]. eapply painted_iff; [exact (painted_trans _ _ _ _ _ _ W P1 P2)|].
      intros x y z' _. cbn. split.
      * intros [Hs|(q & Hq & Hs)]; [exists (f, z)|exists q]; auto.
      * intros (q & [<-|Hq] & Hs); [left; exact Hs|right; eauto].
Qed.

Lemma draw_slices_app im x0 y0 w h v l1 l2 im1 : draw_slices im x0 y0 w h v l1 = Some (1, im1) ->
  draw_slices im x0 y0 w h v (l1 ++ l2) = draw_slices im1 x0 y0 w h v l2.
Proof.
  revert im. induction l1 as [|(f, z) l1 IH]; intros im; cbn [draw_slices app].
  - intros [= ->]. reflexivity.
  - destruct (drawRectangle im x0 y0 w h v f z) as [(r, im2)|]; cbn [option_bind fst snd]; [|discriminate].
    destruct (r =? 1); [apply IH|discriminate].
Qed.

(** A first slice out of range stops the drawing. *)
Lemma draw_slices_out im x0 y0 w h v f z r : depth im <= z -> draw_slices im x0 y0 w h v ((f, z) :: r) = Some (-100, im).
Proof. intros H. cbn [draw_slices]. unfold drawRectangle. replace (z <? depth im) with false by lia. reflexivity. Qed.

Definition box_shape (fill : bool) (x0 y0 z0 w h d x y z : Z) : Prop :=
  if fill then box3 x0 y0 z0 w h d x y z else box_faces x0 y0 z0 w h d x y z.

Lemma box_slices fill x0 y0 z0 w h d x y z : 0 < d ->
  (exists p, In p ((true, z0) :: map (fun z => (fill, z)) (zrange (z0 + 1) (z0 + d - 1 - (z0 + 1))) ++ [(true, z0 + d - 1)]) /\ slice_shape x0 y0 w h p x y z)
  <-> box_shape fill x0 y0 z0 w h d x y z.
Proof.
  intros Hd. split.
  - intros (p & [<-|Hp] & Hs).
    + unfold slice_shape in Hs. cbn [fst snd] in Hs. unfold box_shape, box_faces, box3. unfold rect in Hs. destruct fill; lia.
    + apply in_app_iff in Hp as [Hp|[<-|[]]].
      * apply in_map_iff in Hp as (k & <- & Hk). apply zrange_In in Hk. unfold slice_shape in Hs. cbn [fst snd] in Hs.
        unfold box_shape, box_faces, box3, outline, rect in *. destruct fill; lia.
      * unfold slice_shape in Hs. cbn [fst snd] in Hs. unfold box_shape, box_faces, box3. unfold rect in Hs. destruct fill; lia.
  - intros HB. assert (box3 x0 y0 z0 w h d x y z) as B by (destruct fill; [exact HB|apply HB]).
    unfold box3 in B. destruct (Z.eq_dec z z0) as [->|N0]; [|destruct (Z.eq_dec z (z0 + d - 1)) as [->|N1]].
    + exists (true, z0). split; [left; reflexivity|]. unfold slice_shape. cbn. unfold rect. lia.
    + exists (true, z0 + d - 1). split; [right; apply in_app_iff; right; left; reflexivity|]. unfold slice_shape. cbn. unfold rect. lia.
    + exists (fill, z). split.
      * right. apply in_app_iff. left. apply in_map_iff. exists z. split; [reflexivity|]. apply zrange_In. lia.
      * unfold slice_shape. cbn [fst snd]. unfold box_shape, box_faces, box3, outline, rect in *. destruct fill; lia.
Qed.

Lemma drawBox_ok v im x0 y0 z0 w h d fill : wf_img im -> width im < 2 ^ 31 -> height im < 2 ^ 31 -> depth im < 2 ^ 63 ->
  0 <= x0 -> 0 < w -> x0 + w <= width im -> 0 <= y0 -> 0 < h -> y0 + h <= height im -> 0 <= z0 -> 0 < d -> z0 + d <= depth im ->
  exists im', drawBox im x0 y0 z0 w h d v fill = Some (1, im') /\ painted v (box_shape fill x0 y0 z0 w h d) im im'.
Proof.
  intros W Hw Hh Hd Hx Hw0 Hx1 Hy Hh0 Hy1 Hz Hd0 Hz1. unfold drawBox. rewrite !to_int_id by lia.
  rewrite (to_size_id (z0 + d)), (to_size_id (z0 + d - 1)) by lia. unfold width, height, depth in *.
  destruct (draw_slices_ok v x0 y0 w h (sz im)
    ((true, z0) :: map (fun z => (fill, z)) (zrange (z0 + 1) (z0 + d - 1 - (z0 + 1))) ++ [(true, z0 + d - 1)]) im W eq_refl) as (im' & E & P); try lia.
  - intros p [<-|Hp]; [cbn; lia|]. apply in_app_iff in Hp as [Hp|[<-|[]]]; [|cbn; lia].
    apply in_map_iff in Hp as (k & <- & Hk). apply zrange_In in Hk. cbn. lia.
  - rewrite E. exists im'. split; [reflexivity|]. eapply painted_iff; [exact P|]. intros x y z _. apply box_slices. exact Hd0.
Qed.

Lemma drawBox_deep v im x0 y0 z0 w h d fill : wf_img im -> width im < 2 ^ 31 -> height im < 2 ^ 31 -> depth im < 2 ^ 63 ->
  0 <= x0 -> 0 < w -> x0 + w <= width im -> 0 <= y0 -> 0 < h -> y0 + h <= height im -> 0 <= z0 < depth im -> d < 2 ^ 63 -> depth im < z0 + d ->
  exists im', drawBox im x0 y0 z0 w h d v fill = Some (-100, im') /\ painted v (box_shape fill x0 y0 z0 w h d) im im'.
Proof.
  intros W Hw Hh Hd Hx Hw0 Hx1 Hy Hh0 Hy1 Hz Hd0 Hz1. unfold drawBox. rewrite !to_int_id by lia.
  rewrite (to_size_id (z0 + d)), (to_size_id (z0 + d - 1)) by lia. unfold width, height in *. set (D := depth im) in *.
  set (front := (true, z0) :: map (fun z => (fill, z)) (zrange (z0 + 1) (D - z0 - 1))).
  assert (exists f r, (true, z0) :: map (fun z => (fill, z)) (zrange (z0 + 1) (z0 + d - 1 - (z0 + 1))) ++ [(true, z0 + d - 1)] = front ++ (f, D) :: r) as (f & r & ->).
  { unfold front. destruct (Z.eq_dec (z0 + d - 1) D) as [E|N].
    - exists true, []. cbn [app]. f_equal. rewrite E. replace (D - (z0 + 1)) with (D - z0 - 1) by lia. reflexivity.
    - exists fill. eexists. cbn [app]. f_equal. replace (z0 + d - 1 - (z0 + 1)) with ((D - z0 - 1) + (z0 + d - 1 - D)) by lia.
      rewrite zrange_app by lia. rewrite map_app, <- app_assoc. f_equal. rewrite zrange_cons by lia. cbn [map app].
      replace (z0 + 1 + (D - z0 - 1)) with D by lia. reflexivity. }
  destruct (draw_slices_ok v x0 y0 w h (sz im) front im W eq_refl) as (im' & E & P); try lia.
  { unfold front. intros p [<-|Hp]; [cbn; unfold D, depth in *; lia|].
    apply in_map_iff in Hp as (k & <- & Hk). apply zrange_In in Hk. cbn. unfold D, depth in *. lia. }
  rewrite (draw_slices_app _ _ _ _ _ _ _ _ _ E).
  rewrite draw_slices_out by (unfold depth; rewrite (painted_sz _ _ _ _ P); fold (depth im); fold D; lia).
  exists im'. split; [reflexivity|]. eapply painted_iff; [exact P|]. intros x y z (_ & _ & I). fold (depth im) in I. fold D in I. unfold front. split.
  - intros (p & Hp & Hs). unfold slice_shape, box_shape, box_faces, box3, outline, rect in *. destruct Hp as [<-|Hp].
    + cbn [fst snd] in Hs. destruct fill; lia.
    + apply in_map_iff in Hp as (k & <- & Hk). apply zrange_In in Hk. cbn [fst snd] in Hs. destruct fill; lia.
  - intros HB. assert (box3 x0 y0 z0 w h d x y z) as B by (destruct fill; [exact HB|apply HB]).
    unfold box3 in B. destruct (Z.eq_dec z z0) as [->|N0].
    + exists (true, z0). split; [left; reflexivity|]. unfold slice_shape. cbn. unfold rect. lia.
    + exists (fill, z). split.
      * right. apply in_map_iff. exists z. split; [reflexivity|]. apply zrange_In. lia.
      * unfold slice_shape. cbn [fst snd]. unfold box_shape, box_faces, box3, outline, rect in *. destruct fill; lia.
Qed.

(** *** Discs and spheres *)

Lemma draw_round_ok v center q r2 im ps : wf_img im -> (forall x y z, In (x, y, z) ps -> inside (sz im) x y z /\ sum_sq (center (x, y, z)) = Some (q x y z)) ->
  exists im', draw_round v center r2 im ps = Some im' /\ painted v (fun x y z => In (x, y, z) ps /\ q x y z <= r2) im im'.
Proof.
  intros W H. unfold draw_round.
  destruct (painted_fold v (fun im p => option_bind (sum_sq (center p)) (fun q => if q <=? r2 then paint v im [p] else Some im))
    (fun p x y z => p = (x, y, z) /\ q x y z <= r2) (sz im) ps im W eq_refl) as (im' & E & P).
  - intros ((x, y), z) b Hi Wb Es. destruct (H x y z Hi) as (I & ->). cbn [option_bind].
    destruct (Z.leb_spec (q x y z) r2) as [Hq|Hq].
    + destruct (paint_ok v b [(x, y, z)] Wb) as (b' & E & P). { intros x' y' z' [[= <- <- <-]|[]]. rewrite Es. exact I. }
      exists b'. split; [exact E|]. eapply painted_iff; [exact P|]. intros x' y' z' _. cbn. split.
      * intros [[= <- <- <-]|[]]. auto.
      * intros (Ep & _). auto.
    + exists b. split; [reflexivity|]. apply painted_refl; [exact Wb|]. intros x' y' z' _ ([= <- <- <-] & Hq'). lia.
  - exists im'. split; [exact E|]. eapply painted_iff; [exact P|]. intros x y z _. split.
    + intros (p & Hp & -> & Hq). auto.
    + intros (Hp & Hq). eauto.
Qed.

Lemma sum_sq_ok l R : 0 <= R < 2 ^ 31 -> Forall (fun a => - R <= a <= R) l -> Z.of_nat (length l) * (R * R) < 2 ^ 31 ->
  sum_sq l = Some (fold_left (fun s a => s + a * a) l 0).
Proof.
  intros HR. unfold sum_sq.
  assert (forall l s, Forall (fun a => - R <= a <= R) l -> 0 <= s -> s + Z.of_nat (length l) * (R * R) < 2 ^ 31 ->
    fold_opt (fun s a => option_bind (int_ck a) (fun a => option_bind (int_ck (a * a)) (fun q => int_ck (s + q)))) l s =
    Some (fold_left (fun s a => s + a * a) l s)) as G.
  { clear l. induction l as [|a l IH]; intros s HF Hs HL; cbn [fold_opt fold_left]; [reflexivity|].
    apply Forall_cons_iff in HF as (Ha & HF). cbn [length] in HL.
    assert (0 <= a * a <= R * R) as Q by nia.
    assert (0 <= R * R) by nia. assert (0 <= Z.of_nat (length l) * (R * R)) by nia.
    rewrite (int_ck_ok a) by lia. cbn [option_bind]. rewrite (int_ck_ok (a * a)) by lia. cbn [option_bind].
    rewrite (int_ck_ok (s + a * a)) by lia. apply IH; [exact HF|lia|lia]. }
  intros HF HL. apply G; [exact HF|lia|lia].
Qed.

Lemma sq_bound r a : 0 <= r -> a * a <= r * r -> - r <= a <= r.
Proof. intros H0 H. nia. Qed.

Lemma all_ck l : Forall (fun z => - 2 ^ 31 <= z < 2 ^ 31) l -> all_some (map int_ck l) = Some l.
Proof. induction 1 as [|a l Ha _ IH]; cbn [map all_some]; [reflexivity|]. rewrite int_ck_ok by exact Ha. rewrite IH. reflexivity. Qed.

Lemma drawDisc_ok v im x0 y0 z r : wf_img im -> width im < 2 ^ 31 -> height im < 2 ^ 31 -> 0 <= z < depth im ->
  - 2 ^ 30 <= x0 < 2 ^ 30 -> - 2 ^ 30 <= y0 < 2 ^ 30 -> - 2 ^ 15 < r < 2 ^ 15 ->
  exists im', drawDisc im x0 y0 z r v = Some (1, im') /\ painted v (disc x0 y0 z r) im im'.
Proof.
  intros W Hw Hh Hz Hx Hy Hr. unfold drawDisc. replace (z <? depth im) with true by lia. cbn [negb].
  assert (0 <= r * r < 2 ^ 30) as Hr2 by nia.
  rewrite all_ck by (repeat constructor; lia). cbn [option_bind].
  pose proof W as ((D1 & D2 & D3) & _). unfold width, height in *. rewrite !to_int_id by lia.
  match goal with |- context [draw_round v ?c ?r2 im ?l] => set (ps := l) end.
  assert (forall x y z', In (x, y, z') ps <-> Z.max (x0 - r) 0 <= x <= Z.min (x0 + r) (dw (sz im) - 1) /\ Z.max (y0 - r) 0 <= y <= Z.min (y0 + r) (dh (sz im) - 1) /\ z' = z) as IP.
  { intros x y z'. unfold ps. rewrite in_flat_map. split.
    - intros (y' & Hy' & Hi). apply in_map_iff in Hi as (x' & [= <- <- <-] & Hx'). apply zrange_In in Hx', Hy'. lia.
    - intros (Hx' & Hy' & ->). exists y. split; [apply zrange_In; lia|]. apply in_map_iff. exists x. split; [reflexivity|]. apply zrange_In. lia. }
  clearbody ps.
  destruct (draw_round_ok v (fun '(x, y, z) => [x - x0; y - y0]) (fun x y z => (x - x0) * (x - x0) + (y - y0) * (y - y0)) (r * r) im ps W) as (im' & E & P).
  - intros x y z' Hi. apply IP in Hi. split; [unfold inside; fold (depth im); lia|].
    rewrite (sum_sq_ok _ (Z.abs r)); [cbn; f_equal; lia|lia|repeat constructor; lia|]. cbn [length]. nia.
  - rewrite E. exists im'. split; [reflexivity|]. eapply painted_iff; [exact P|]. intros x y z' (I1 & I2 & I3). rewrite IP. unfold disc.
    rewrite !Z.pow_2_r. split.
    + intros (Hb & Hq). lia.
    + intros (H0 & Hq & ->). split; [|exact Hq]. pose proof (Z.square_nonneg (x - x0)). pose proof (Z.square_nonneg (y - y0)).
      pose proof (sq_bound r (x - x0) H0 ltac:(lia)). pose proof (sq_bound r (y - y0) H0 ltac:(lia)). lia.
Qed.

Lemma drawSphere_ok v im x0 y0 z0 r : wf_img im -> width im < 2 ^ 31 -> height im < 2 ^ 31 -> depth im < 2 ^ 31 ->
  - 2 ^ 30 <= x0 < 2 ^ 30 -> - 2 ^ 30 <= y0 < 2 ^ 30 -> - 2 ^ 30 <= z0 < 2 ^ 30 -> - 26754 <= r <= 26754 ->
  exists im', drawSphere im x0 y0 z0 r v = Some (1, im') /\ painted v (ball x0 y0 z0 r) im im'.
Proof.
  intros W Hw Hh Hd Hx Hy Hz Hr. unfold drawSphere.
  assert (0 <= r * r <= 26754 * 26754) as Hr2 by nia.
  rewrite all_ck by (repeat constructor; lia). cbn [option_bind].
  pose proof W as ((D1 & D2 & D3) & _). unfold width, height, depth in *. rewrite !to_int_id by lia.
  match goal with |- context [draw_round v ?c ?r2 im ?l] => set (ps := l) end.
  assert (forall x y z, In (x, y, z) ps <-> Z.max (x0 - r) 0 <= x <= Z.min (x0 + r) (dw (sz im) - 1) /\
     Z.max (y0 - r) 0 <= y <= Z.min (y0 + r) (dh (sz im) - 1) /\ Z.max (z0 - r) 0 <= z <= Z.min (z0 + r) (dd (sz im) - 1)) as IP.
  { intros x y z'. unfold ps. rewrite in_flat_map. split.
    - intros (k & Hk & Hi). apply in_flat_map in Hi as (y' & Hy' & Hi). apply in_map_iff in Hi as (x' & [= <- <- <-] & Hx'). apply zrange_In in Hx', Hy', Hk. lia.
    - intros (Hx' & Hy' & Hz'). exists z'. split; [apply zrange_In; lia|]. apply in_flat_map. exists y. split; [apply zrange_In; lia|].
      apply in_map_iff. exists x. split; [reflexivity|]. apply zrange_In. lia. }
  clearbody ps.
  destruct (draw_round_ok v (fun '(x, y, z) => [x - x0; y - y0; z - z0]) (fun x y z => (x - x0) * (x - x0) + (y - y0) * (y - y0) + (z - z0) * (z - z0)) (r * r) im ps W) as (im' & E & P).
  - intros x y z' Hi. apply IP in Hi. split; [unfold inside; lia|].
    rewrite (sum_sq_ok _ (Z.abs r)); [cbn; f_equal; lia|lia|repeat constructor; lia|]. cbn [length]. rewrite <- Z.abs_mul, Z.abs_eq by lia. lia.
  - rewrite E. exists im'. split; [reflexivity|]. eapply painted_iff; [exact P|]. intros x y z' (I1 & I2 & I3). rewrite IP. unfold ball.
    rewrite !Z.pow_2_r. clear - Hr Hr2 I1 I2 I3. split.
    + intros (Hb & Hq). lia.
    + intros (H0 & Hq). split; [|exact Hq].
      pose proof (Z.square_nonneg (x - x0)). pose proof (Z.square_nonneg (y - y0)). pose proof (Z.square_nonneg (z' - z0)).
      pose proof (sq_bound r (x - x0) H0 ltac:(lia)). pose proof (sq_bound r (y - y0) H0 ltac:(lia)). pose proof (sq_bound r (z' - z0) H0 ltac:(lia)). lia.
Qed.
