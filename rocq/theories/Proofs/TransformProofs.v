From Verif Require Export Model.Transform Proofs.LoopFacts.

(** Extended from the sum of the two image sizes: offsets inside a window. *)
Definition in_win (o s n : Z) (v : Z) : Prop := o <= v < o + Z.min n s.

Lemma pixel_val im x y z : wf_img im -> inside (sz im) x y z ->
  pixel_is im x y z (znth 0 (pixs im) (voxel_offset (dw (sz im)) (dh (sz im)) x y z)).
Proof.
  intros Hw Hi. destruct (pixel_exists im x y z Hw Hi) as (v & H). pose proof H as (_ & E).
  rewrite (znth_rd 0 _ _ _ E). exact H.
Qed.

Definition pxv (im : img) (x y z : Z) : Z := znth 0 (pixs im) (voxel_offset (dw (sz im)) (dh (sz im)) x y z).

Lemma pxv_is im x y z v : pixel_is im x y z v -> pxv im x y z = v.
Proof. intros (_ & E). apply znth_rd. exact E. Qed.

Lemma pxv_ok im x y z : wf_img im -> inside (sz im) x y z -> pixel_is im x y z (pxv im x y z).
Proof. apply pixel_val. Qed.

Lemma move_px_ok conv im so x y z x' y' z' : wf_img im -> wf_dims so -> inside (sz im) x y z -> inside so x' y' z' ->
  move_px conv im so x y z x' y' z' = Some (voxel_offset (dw so) (dh so) x' y' z', conv (pxv im x y z)).
Proof.
  intros Hw Hs Hi Ho. unfold move_px. rewrite (pix_at_is im x y z _ Hw (pxv_ok im x y z Hw Hi)). cbn.
  rewrite slice_access_wf by assumption. reflexivity.
Qed.

Lemma copy_range_reject conv sched imIn sx sy sz_ nx ny nz imOut ox oy oz :
  0 <= sx -> 0 <= sy -> 0 <= sz_ -> 0 <= ox -> 0 <= oy -> 0 <= oz ->
  ~ (inside (sz imIn) sx sy sz_ /\ inside (sz imOut) ox oy oz) ->
  copy_range conv sched imIn sx sy sz_ nx ny nz imOut ox oy oz = Some (-100, imOut).
Proof.
  intros ? ? ? ? ? ? H. unfold copy_range, inside, width, height, depth in *.
  destruct (negb _) eqn:E1; [reflexivity|]. destruct (negb _) eqn:E2 in |- *; [reflexivity|]. exfalso. lia.
Qed.

Lemma copy_range_ok conv sched imIn sx sy sz_ nx ny nz imOut ox oy oz :
  legal_sched sched -> wf_img imIn -> wf_img imOut -> small (sz imIn) -> small (sz imOut) ->
  inside (sz imIn) sx sy sz_ -> inside (sz imOut) ox oy oz -> 0 <= nx -> 0 <= ny -> 0 <= nz ->
  exists out, copy_range conv sched imIn sx sy sz_ nx ny nz imOut ox oy oz = Some (1, out) /\
    wf_img out /\ sz out = sz imOut /\
    (forall i j k u, 0 <= i < nx -> 0 <= j < ny -> 0 <= k < nz ->
       pixel_is imIn (sx + i) (sy + j) (sz_ + k) u -> inside (sz imOut) (ox + i) (oy + j) (oz + k) ->
       pixel_is out (ox + i) (oy + j) (oz + k) (conv u)) /\
    (forall x y z v,
       ~ (exists i j k, 0 <= i < nx /\ 0 <= j < ny /\ 0 <= k < nz /\ inside (sz imIn) (sx + i) (sy + j) (sz_ + k) /\
            x = ox + i /\ y = oy + j /\ z = oz + k) ->
       (pixel_is out x y z v <-> pixel_is imOut x y z v)).
Proof.
  intros HS Wi Wo Si So Hi Ho Hnx Hny Hnz. unfold copy_range, width, height, depth.
  destruct Hi as (Hi1 & Hi2 & Hi3), Ho as (Ho1 & Ho2 & Ho3).
  pose proof Si as (Si1 & Si2 & Si3 & _). pose proof So as (So1 & So2 & So3 & _).
  destruct (negb _) eqn:E1; [lia|]. destruct (negb _) eqn:E2 in |- *; [lia|].
  rewrite !to_size_id by lia.
  set (rx := Z.min (Z.min nx (dw (sz imIn) - sx)) (dw (sz imOut) - ox)).
  set (ry := Z.min (Z.min ny (dh (sz imIn) - sy)) (dh (sz imOut) - oy)).
  set (rz := Z.min (Z.min nz (dd (sz imIn) - sz_)) (dd (sz imOut) - oz)).
  destruct (scatter_voxels
    (fun '(x, y, z) => move_px conv imIn (sz imOut) (sx + x) (sy + y) (sz_ + z) (ox + x) (oy + y) (oz + z))
    (fun '(x, y, z) => (ox + x, oy + y, oz + z)) (fun '(x, y, z) => conv (pxv imIn (sx + x) (sy + y) (sz_ + z)))
    (sched (grid rx ry rz)) (sz imOut) (pixs imOut)) as (px & E & Hw & H1 & H2).
  - destruct imOut; exact Wo.
  - intros [[x y] z] Hc. apply HS, grid_In in Hc. unfold rx, ry, rz in Hc.
    assert (inside (sz imOut) (ox + x) (oy + y) (oz + z)) by (unfold inside; lia). split; [assumption|].
    apply move_px_ok; auto. apply small_wf, So. unfold inside; lia.
  - intros [[x y] z] [[x' y'] z'] _ _ E. injection E as Ex Ey Ez. repeat f_equal; lia.
  - rewrite E. cbn. eexists. split; [reflexivity|]. split; [exact Hw|]. split; [reflexivity|]. split.
    + intros i j k u Bi Bj Bk Hu Hin. pose proof Hu as ((? & ? & ?) & _). pose proof Hin as (? & ? & ?).
      specialize (H1 (i, j, k)). cbn in H1. rewrite <- (pxv_is _ _ _ _ _ Hu). apply H1.
      apply HS, grid_In. unfold rx, ry, rz. lia.
    + intros x y z v Hn. rewrite H2; [destruct imOut; tauto|].
      intros [[i j] k] Hc Et. apply HS, grid_In in Hc. injection Et as <- <- <-. apply Hn. exists i, j, k.
      unfold rx, ry, rz, inside in *. lia.
Qed.

(** crop *)
Lemma crop_ok junk sched imIn sx sy sz_ nx ny nz imOut :
  legal_sched sched -> wf_img imIn -> wf_img imOut -> small (sz imIn) ->
  inside (sz imIn) sx sy sz_ -> 0 < nx -> 0 < ny -> 0 < nz ->
  exists out, crop junk sched imIn sx sy sz_ nx ny nz imOut = Some (1, out) /\ wf_img out /\
    sz out = Dims (Z.min nx (dw (sz imIn) - sx)) (Z.min ny (dh (sz imIn) - sy)) (Z.min nz (dd (sz imIn) - sz_)) /\
    (forall x y z v, inside (sz out) x y z -> (pixel_is out x y z v <-> pixel_is imIn (sx + x) (sy + y) (sz_ + z) v)).
Proof.
  intros HS Wi Wo Si Hi Hnx Hny Hnz. unfold crop, width, height, depth.
  pose proof Si as (Si1 & Si2 & Si3 & Si4). pose proof Hi as (Hi1 & Hi2 & Hi3).
  rewrite !to_size_id by lia.
  set (rx := Z.min nx (dw (sz imIn) - sx)). set (ry := Z.min ny (dh (sz imIn) - sy)). set (rz := Z.min nz (dd (sz imIn) - sz_)).
  assert (0 < rx <= dw (sz imIn) /\ 0 < ry <= dh (sz imIn) /\ 0 < rz <= dd (sz imIn)) as (Bx & By & Bz) by (unfold rx, ry, rz; lia).
  assert (small (Dims rx ry rz)) as Sm.
  { unfold small; cbn. repeat split; try lia.
    apply Z.le_lt_trans with (dw (sz imIn) * dh (sz imIn) * dd (sz imIn)); [|exact Si4].
    apply Z.mul_le_mono_nonneg; [|apply Z.mul_le_mono_nonneg; lia|lia|lia].
    apply Z.mul_nonneg_nonneg; lia. }
  destruct (setSize_wf junk imOut (Dims rx ry rz) Wo (small_wf _ Sm)) as (W & Es).
  destruct (copy_range_ok (fun v => v) sched imIn sx sy sz_ rx ry rz (setSize junk imOut (Dims rx ry rz)) 0 0 0)
    as (out & E & Wout & Eo & H1 & _); try assumption; try lia.
  - rewrite Es; exact Sm.
  - rewrite Es. unfold inside; cbn; lia.
  - exists out. split; [exact E|]. split; [exact Wout|]. rewrite Eo, Es. split; [reflexivity|].
    intros x y z v Hin. pose proof Hin as (? & ? & ?). cbn in *.
    assert (inside (sz imIn) (sx + x) (sy + y) (sz_ + z)) as Hii by (unfold inside, rx, ry, rz in *; lia).
    destruct (pixel_exists imIn _ _ _ Wi Hii) as (u & Hu).
    assert (pixel_is out x y z u) as Ho.
    { rewrite Es in H1. apply (H1 x y z u); auto. }
    split; intros H'.
    + rewrite (pixel_is_fun _ _ _ _ _ _ H' Ho). exact Hu.
    + rewrite (pixel_is_fun _ _ _ _ _ _ H' Hu). exact Ho.
Qed.

Lemma crop_reject junk sched imIn sx sy sz_ nx ny nz imOut :
  0 <= sx -> 0 <= sy -> 0 <= sz_ -> 0 <= nx -> 0 <= ny -> 0 <= nz ->
  ~ (inside (sz imIn) sx sy sz_ /\ 0 < nx /\ 0 < ny /\ 0 < nz) -> small (sz imIn) ->
  exists out, crop junk sched imIn sx sy sz_ nx ny nz imOut = Some (-100, out).
Proof.
  intros ? ? ? ? ? ? Hn Si. unfold crop. eexists. apply copy_range_reject; try lia.
  intros (Hi & Ho). apply Hn. split; [exact Hi|].
  pose proof Si as (Si1 & Si2 & Si3 & _). destruct Hi as (? & ? & ?).
  unfold setSize, width, height, depth in Ho. rewrite !to_size_id in Ho by lia. cbn in Ho.
  destruct (_ && _) eqn:E in Ho; unfold inside in Ho; cbn in Ho; lia.
Qed.

Lemma filled_wf im v : wf_img im -> wf_img (Img (sz im) (map (fun _ => v) (pixs im))).
Proof. intros (Hw & HL). split; cbn; [exact Hw|]. rewrite map_length. exact HL. Qed.

Lemma filled_is im (v u : Z) x y z : wf_img im -> pixel_is (Img (sz im) (map (fun _ => v) (pixs im))) x y z u <-> inside (sz im) x y z /\ u = v.
Proof.
  intros Hw. unfold pixel_is. cbn. rewrite rd_map. split.
  - intros (Hi & E). split; [exact Hi|]. destruct (rd _ _); cbn in E; congruence.
  - intros (Hi & ->). split; [exact Hi|]. destruct (pixel_exists im x y z Hw Hi) as (w & _ & ->). reflexivity.
Qed.

(** The border in z is only added to images of more than one slice. *)
Lemma addBorder_ok junk sched imIn b imOut bv :
  legal_sched sched -> wf_img imIn -> wf_img imOut -> small (sz imIn) -> nonempty imIn -> 0 <= b ->
  let bz := if 1 <? dd (sz imIn) then b else 0 in
  let so := Dims (dw (sz imIn) + 2 * b) (dh (sz imIn) + 2 * b) (dd (sz imIn) + 2 * bz) in
  small so ->
  exists out, addBorder junk sched imIn b imOut bv = Some (1, out) /\ wf_img out /\ sz out = so /\
    (forall x y z v, inside (sz imIn) x y z -> (pixel_is out (x + b) (y + b) (z + bz) v <-> pixel_is imIn x y z v)) /\
    (forall x y z v, inside so x y z -> ~ inside (sz imIn) (x - b) (y - b) (z - bz) -> (pixel_is out x y z v <-> v = bv)).
Proof.
  intros HS Wi Wo Si Ne Hb bz so So. unfold addBorder, width, height, depth. rewrite Z.gtb_ltb.
  pose proof Si as (Si1 & Si2 & Si3 & _). destruct Ne as (N1 & N2 & N3).
  destruct (setSize_wf junk imOut so Wo (small_wf _ So)) as (W & Es).
  set (f := setSize junk imOut so) in *. set (ff := Img (sz f) (map (fun _ => bv) (pixs f))).
  assert (0 <= bz) as Hbz by (unfold bz; destruct (1 <? _); lia).
  destruct (copy_range_ok (fun v => v) sched imIn 0 0 0 (dw (sz imIn)) (dh (sz imIn)) (dd (sz imIn)) ff b b bz)
    as (out & E & Wout & Eo & H1 & H2); try assumption; try lia.
  - apply filled_wf; exact W.
  - cbn. rewrite Es. exact So.
  - unfold inside. cbn. lia.
  - unfold ff; cbn [sz]. rewrite Es. unfold inside, so. cbn [dw dh dd]. lia.
  - unfold ff in Eo, H1, H2; cbn [sz] in Eo, H1, H2.
    assert ((if 1 <? dd (sz imIn)
       then copy_range (fun v => v) sched imIn 0 0 0 (dw (sz imIn)) (dh (sz imIn)) (dd (sz imIn))
            (let im := setSize junk imOut (Dims (dw (sz imIn) + 2 * b) (dh (sz imIn) + 2 * b) (dd (sz imIn) + 2 * b)) in
             Img (sz im) (map (fun _ => bv) (pixs im))) b b b
       else copy_range (fun v => v) sched imIn 0 0 0 (dw (sz imIn)) (dh (sz imIn)) 1
            (let im := setSize junk imOut (Dims (dw (sz imIn) + 2 * b) (dh (sz imIn) + 2 * b) 1) in
             Img (sz im) (map (fun _ => bv) (pixs im))) b b 0) = Some (1, out)) as E'.
    { rewrite <- E. unfold ff, f, so, bz. destruct (Z.ltb_spec 1 (dd (sz imIn))).
      - reflexivity.
      - replace (dd (sz imIn)) with 1 by lia. reflexivity. }
    match goal with |- exists _, option_bind ?o _ = _ /\ _ => replace o with (Some (1, out)) by (symmetry; exact E') end.
    cbn [option_bind snd]. exists out. split; [reflexivity|]. split; [exact Wout|]. split; [rewrite Eo; exact Es|].
    assert (forall x y z u, pixel_is imIn x y z u -> pixel_is out (x + b) (y + b) (z + bz) u) as Hf.
    { intros x y z u Hu. pose proof Hu as ((? & ? & ?) & _).
      specialize (H1 x y z u). rewrite !(Z.add_comm b), (Z.add_comm bz), !Z.add_0_l in H1. apply H1; auto.
      rewrite Es. unfold inside, so. cbn [dw dh dd]. lia. }
    split.
    + intros x y z v Hin. destruct (pixel_exists imIn x y z Wi Hin) as (u & Hu). pose proof (Hf x y z u Hu) as Ho.
      split; intros H'; [rewrite (pixel_is_fun _ _ _ _ _ _ H' Ho)|rewrite (pixel_is_fun _ _ _ _ _ _ H' Hu)]; assumption.
    + intros x y z v Hin Hout. rewrite H2.
      * unfold ff. rewrite filled_is by exact W. rewrite Es. tauto.
      * intros (i & j & k & ? & ? & ? & ? & -> & -> & ->). apply Hout. unfold inside. lia.
Qed.

Lemma border_crop junk junk' sched sched' imIn b imOut imOut' bv out :
  legal_sched sched -> legal_sched sched' -> wf_img imIn -> wf_img imOut -> wf_img imOut' -> small (sz imIn) -> nonempty imIn -> 0 <= b ->
  let bz := if 1 <? dd (sz imIn) then b else 0 in
  small (Dims (dw (sz imIn) + 2 * b) (dh (sz imIn) + 2 * b) (dd (sz imIn) + 2 * bz)) ->
  addBorder junk sched imIn b imOut bv = Some (1, out) ->
  crop junk' sched' out b b bz (dw (sz imIn)) (dh (sz imIn)) (dd (sz imIn)) imOut' = Some (1, imIn).
Proof.
  intros HS HS' Wi Wo Wo' Si Ne Hb bz So E.
  destruct (addBorder_ok junk sched imIn b imOut bv HS Wi Wo Si Ne Hb So) as (out' & E' & Wout & Es & H1 & _).
  rewrite E in E'. injection E' as <-. destruct Ne as (N1 & N2 & N3). fold bz in Es, H1.
  assert (0 <= bz) as Hbz by (unfold bz; destruct (1 <? _); lia). clearbody bz.
  destruct (crop_ok junk' sched' out b b bz (dw (sz imIn)) (dh (sz imIn)) (dd (sz imIn)) imOut') as (r & Ec & Wr & Er & H2); try assumption.
  - rewrite Es. exact So.
  - rewrite Es. unfold inside. cbn [dw dh dd]. lia.
  - rewrite Ec. do 2 f_equal. rewrite Es in Er. cbn [dw dh dd] in Er.
    assert (sz r = sz imIn) as Esz. { rewrite Er. destruct (sz imIn) as [w h d]; cbn [dw dh dd] in *. f_equal; lia. }
    apply img_ext; auto. intros x y z v Hv. pose proof Hv as (Hi & _).
    apply (H2 x y z v Hi) in Hv. rewrite Esz in Hi. rewrite !(Z.add_comm b), (Z.add_comm bz) in Hv. apply H1 in Hv; assumption.
Qed.
