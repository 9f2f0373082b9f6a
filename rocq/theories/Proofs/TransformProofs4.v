From Verif Require Export Proofs.TransformProofs3.

Definition shifted (im : img) (dx dy dz bv x y z : Z) : Z :=
  if (0 <=? x - dx) && (x - dx <? width im) && (0 <=? y - dy) && (y - dy <? height im) && (0 <=? z - dz) && (z - dz <? depth im)
  then pxv im (x - dx) (y - dy) (z - dz) else bv.

Lemma In_lines j k h d : In (j, k) (flat_map (fun k => map (fun j => (j, k)) (zseq h)) (zseq d)) <-> 0 <= j < h /\ 0 <= k < d.
Proof.
  rewrite in_flat_map. split.
  - intros (k' & Hk & H). apply in_map_iff in H as (j' & E & Hj). injection E as -> ->. rewrite zseq_In in *. tauto.
  - intros (Hj & Hk). exists k. split; [apply zseq_In; exact Hk|]. apply in_map_iff. exists j. split; [reflexivity|apply zseq_In; exact Hj].
Qed.

Lemma line_in_array s x y z : inside s 0 y z -> 0 < dw s -> 0 <= x <= dw s ->
  0 <= voxel_offset (dw s) (dh s) 0 y z /\ voxel_offset (dw s) (dh s) 0 y z + x <= dw s * dh s * dd s.
Proof.
  intros Hi Hw Hx. pose proof (inside_range s 0 y z Hi). pose proof Hi as (? & ? & ?).
  pose proof (inside_range s (dw s - 1) y z ltac:(unfold inside; lia)) as H3. unfold voxel_offset in *. lia.
Qed.

Lemma line_cell s y z i : 0 <= i -> voxel_offset (dw s) (dh s) 0 y z + i = voxel_offset (dw s) (dh s) i y z.
Proof. intros. unfold voxel_offset. lia. Qed.

Lemma translate_ok imIn dx dy dz imOut bv : wf_img imIn -> wf_img imOut -> small (sz imIn) -> nonempty imIn -> sz imIn = sz imOut ->
  (Z.abs dx <= dw (sz imIn) \/ Z.abs dy >= dh (sz imIn) \/ Z.abs dz >= dd (sz imIn)) ->
  exists out, translate imIn dx dy dz imOut bv = Some (1, out) /\ wf_img out /\ sz out = sz imIn /\
    forall x y z v, inside (sz imIn) x y z ->
      (inside (sz imIn) (x - dx) (y - dy) (z - dz) -> (pixel_is out x y z v <-> pixel_is imIn (x - dx) (y - dy) (z - dz) v)) /\
      (~ inside (sz imIn) (x - dx) (y - dy) (z - dz) -> (pixel_is out x y z v <-> v = bv)).
Proof.
  intros Wi Wo Sm (N1 & N2 & N3) Es Hd. unfold translate. rewrite (proj2 (same_size_eq imIn imOut) Es). cbn [negb].
  unfold width, height, depth. pose proof Wi as (Wd & WL). pose proof Wo as (_ & WLo). rewrite <- Es in WLo.
  pose proof Sm as (S1 & S2 & S3 & _).
  set (s := sz imIn) in *. set (n := dw s * dh s * dd s) in *.
  match goal with |- context [fold_opt ?f ?l ?b] =>
    destruct (fold_opt_inv (fun done px => Z.of_nat (length px) = n /\
      forall j k, In (j, k) done -> forall x, 0 <= x < dw s ->
         rd px (voxel_offset (dw s) (dh s) x j k) = Some (shifted imIn dx dy dz bv x j k)) f l b) as (px & E & HL & H) end.
  - split; [exact WLo|]. intros j k [].
  - intros done [j k] todo px El (HL & H).
    assert (0 <= j < dh s /\ 0 <= k < dd s) as (Hj & Hk).
    { apply In_lines. rewrite El. apply in_elt. }
    assert (inside s 0 j k) as Hi0 by (unfold inside; lia).
    rewrite <- Es. rewrite (slice_access_wf s 0 j k Wd Hi0). cbn [option_bind].
    set (b := voxel_offset (dw s) (dh s) 0 j k).
    destruct (line_in_array s (dw s) j k Hi0 N1) as (Hb1 & Hb2); [lia|]. fold b n in Hb1, Hb2.
    assert (exists px', (if (k - dz <? 0) || (k - dz >=? dd s) || (j - dy <? 0) || (j - dy >=? dh s)
      then fill_cells px b (dw s) bv
      else option_bind (slice_access s 0 (j - dy) (k - dz)) (fun a => shiftLine (pixs imIn) px a dx (dw s) b bv)) = Some px' /\
      length px' = length px /\
      forall i, rd px' i = if (b <=? i) && (i <? b + dw s) then Some (shifted imIn dx dy dz bv (i - b) j k) else rd px i) as (px' & E & L' & H').
    { destruct (_ || _) eqn:B.
      - destruct (fill_cells_ok px b (dw s) bv) as (px' & E & L' & H'); try lia. exists px'. split; [exact E|]. split; [exact L'|].
        intros i. rewrite H'. destruct (_ && _); [|reflexivity]. f_equal. unfold shifted, width, height, depth. fold s.
        destruct (_ && _) eqn:C; [lia|reflexivity].
      - assert (inside s 0 (j - dy) (k - dz)) as Hi1 by (unfold inside; lia).
        rewrite (slice_access_wf s _ _ _ Wd Hi1). cbn [option_bind].
        destruct (line_in_array s (dw s) _ _ Hi1 N1) as (Ha1 & Ha2); [lia|].
        destruct (shiftLine_ok (pixs imIn) px (voxel_offset (dw s) (dh s) 0 (j - dy) (k - dz)) dx (dw s) b bv) as (px' & E & L' & H'); try lia.
        exists px'. split; [exact E|]. split; [exact L'|]. intros i. rewrite H'. destruct (_ && _) eqn:B1; [|reflexivity].
        unfold shifted, width, height, depth. fold s. destruct ((0 <=? i - b - dx) && (i - b - dx <? dw s)) eqn:B2.
        + rewrite line_cell by lia. cbn [andb].
          match goal with |- context [if ?c then _ else _] => replace c with true by lia end.
          destruct (pxv_ok imIn (i - b - dx) (j - dy) (k - dz) Wi) as (_ & Ev); [unfold inside; fold s; lia|]. exact Ev.
        + cbn [andb]. reflexivity. }
    exists px'. split; [exact E|]. split; [lia|]. intros j' k' Hin x Hx. rewrite H'.
    apply in_app_iff in Hin as [Hin|[Ejk|[]]].
    + destruct (_ && _) eqn:B; [|apply H; assumption]. f_equal.
      assert (0 <= j' < dh s /\ 0 <= k' < dd s) as (Hj' & Hk').
      { apply In_lines. rewrite El. apply in_app_iff. auto. }
      destruct (voxel_inj s x j' k' (voxel_offset (dw s) (dh s) x j' k' - b) j k) as (<- & -> & ->); [unfold inside; lia|unfold inside; lia| |reflexivity].
      rewrite <- (line_cell s j k) by lia. fold b. lia.
    + injection Ejk as -> ->. rewrite <- line_cell by lia. fold b. destruct (_ && _) eqn:B; [|lia]. do 2 f_equal. lia.
  - rewrite E. cbn [option_bind]. rewrite <- Es. fold s. eexists. split; [reflexivity|]. split; [split; cbn; [exact Wd|exact HL]|]. split; [reflexivity|].
    intros x y z v Hi. pose proof Hi as (Hx & Hy & Hz). specialize (H y z (proj2 (In_lines y z _ _) (conj Hy Hz)) x Hx).
    assert (pixel_is (Img s px) x y z (shifted imIn dx dy dz bv x y z)) as Hp by (split; assumption).
    split; intros Hin.
    + revert v. apply pixel_iff with (pxv imIn (x - dx) (y - dy) (z - dz)); [|apply pxv_ok; assumption].
      unfold shifted, width, height, depth in Hp. fold s in Hp. unfold inside in Hin. destruct (_ && _) eqn:C in Hp; [exact Hp|lia].
    + unfold shifted, width, height, depth in Hp. fold s in Hp. unfold inside in Hin. destruct (_ && _) eqn:C in Hp; [lia|].
      split; [intros Hv; apply (pixel_is_fun _ _ _ _ _ _ Hv Hp)|intros ->; exact Hp].
Qed.

Lemma translate_oob imIn dx dy dz imOut bv : wf_img imIn -> wf_img imOut -> small (sz imIn) -> nonempty imIn -> sz imIn = sz imOut ->
  dw (sz imIn) < 2 ^ 31 -> dw (sz imIn) < Z.abs dx < 2 ^ 31 -> Z.abs dy < dh (sz imIn) -> Z.abs dz < dd (sz imIn) ->
  translate imIn dx dy dz imOut bv = None.
Proof.
  intros Wi Wo Sm (N1 & N2 & N3) Es Hw Hdx Hdy Hdz. unfold translate. rewrite (proj2 (same_size_eq imIn imOut) Es). cbn [negb].
  unfold width, height, depth. pose proof Wi as (Wd & WL). pose proof Sm as (S1 & S2 & S3 & S4).
  rewrite (fold_opt_None (fun _ => True) _ _ (Z.max 0 dy, Z.max 0 dz)); auto.
  - apply In_lines. lia.
  - intros b _. rewrite <- Es. rewrite slice_access_wf by (auto; unfold inside; lia). cbn [option_bind].
    match goal with |- context [if ?c then _ else _] => destruct c eqn:C end; [lia|].
    rewrite slice_access_wf by (auto; unfold inside; lia). cbn [option_bind].
    apply shiftLine_oob; try lia.
    destruct (inside_range (sz imIn) 0 (Z.max 0 dy - dy) (Z.max 0 dz - dz)); [unfold inside; lia|assumption].
Qed.

Lemma translate_bad imIn dx dy dz imOut bv : sz imIn <> sz imOut -> translate imIn dx dy dz imOut bv = Some (-98, imOut).
Proof.
  intros H. unfold translate. destruct (same_size imIn imOut) eqn:E; [|reflexivity]. apply same_size_eq in E. contradiction.
Qed.

(** Transposition. *)
Definition is_lut (l0 l1 l2 : nat) : Prop :=
  In (l0, l1, l2) [(0, 2, 1); (1, 0, 2); (1, 2, 0); (2, 0, 1); (2, 1, 0)]%nat.

Lemma transpose_loop_ok junk (sched : sched3) imIn imOut l0 l1 l2 : legal_sched sched -> wf_img imIn -> wf_img imOut -> small (sz imIn) ->
  is_lut l0 l1 l2 ->
  let s := sz imIn in
  let so := Dims (pick l0 (dw s) (dh s) (dd s)) (pick l1 (dw s) (dh s) (dd s)) (pick l2 (dw s) (dh s) (dd s)) in
  let out := setSize junk imOut so in
  exists px, fold_opt (fun px '(x, y, z) =>
             option_bind (getPixel_xyz (sz imIn) (pixs imIn) x y z) (fun v =>
             option_bind (setPixel_xyz (sz out) px (pick l0 x y z) (pick l1 x y z) (pick l2 x y z) v)
               (fun r => Some (snd r))))
            (sched (grid (dw s) (dh s) (dd s))) (pixs out) = Some px /\ wf_img (Img so px) /\ sz out = so /\
    forall x y z, inside s x y z -> forall v,
      pixel_is (Img so px) (pick l0 x y z) (pick l1 x y z) (pick l2 x y z) v <-> pixel_is imIn x y z v.
Proof.
  intros HS Wi Wo Sm HL s so out. pose proof Sm as (S1 & S2 & S3 & S4). fold s in S1, S2, S3, S4.
  assert (wf_dims so) as Wso.
  { unfold wf_dims, so, pick; cbn. destruct l0 as [|[|?]], l1 as [|[|?]], l2 as [|[|?]]; lia. }
  destruct (setSize_wf junk imOut so Wo Wso) as (W & Eo). fold out in W, Eo.
  assert (small so) as Sso.
  { cbn in HL. unfold small, so. cbn. unfold is_lut in HL. cbn in HL.
    destruct HL as [E|[E|[E|[E|[E|[]]]]]]; injection E as <- <- <-; cbn [pick]; repeat split; try lia; nia. }
  assert (forall x y z, inside s x y z -> inside so (pick l0 x y z) (pick l1 x y z) (pick l2 x y z)) as Hin.
  { intros x y z (? & ? & ?). unfold is_lut in HL. cbn in HL. unfold inside, so.
    destruct HL as [E|[E|[E|[E|[E|[]]]]]]; injection E as <- <- <-; cbn [pick dw dh dd]; lia. }
  destruct (remap_ok (fun '(x, y, z) => option_bind (getPixel_xyz s (pixs imIn) x y z) (fun v =>
        Some (voxel_offset (dw so) (dh so) (pick l0 x y z) (pick l1 x y z) (pick l2 x y z), v)))
      (fun '(x, y, z) => (pick l0 x y z, pick l1 x y z, pick l2 x y z)) (fun c => c) (sched (grid (dw s) (dh s) (dd s))) imIn so (pixs out))
    as (px & E & Wpx & H).
  - exact Wi.
  - rewrite <- Eo. destruct out; exact W.
  - intros [[x y] z] Hc. apply HS, grid_In in Hc. assert (inside s x y z) as Hi by exact Hc.
    split; [exact Hi|]. split; [apply Hin; exact Hi|].
    destruct (getPixel_ok s (pixs imIn) x y z Sm (proj2 Wi)) as (v & Ev & Hv & _); try lia. rewrite Ev. cbn [option_bind].
    do 2 f_equal. symmetry. apply pxv_is. split; [exact Hi|]. apply Hv. exact Hi.
  - intros [[x y] z] [[x' y'] z'] Hc Hc' Et. injection Et as E0 E1 E2. unfold is_lut in HL. cbn in HL.
    destruct HL as [E|[E|[E|[E|[E|[]]]]]]; injection E as <- <- <-; cbn [pick] in *; subst; reflexivity.
  - exists px. split.
    + rewrite <- E. unfold scatter.
      assert (forall order px0, Z.of_nat (length px0) = dw so * dh so * dd so ->
        (forall c, In c order -> In c (grid (dw s) (dh s) (dd s))) ->
        fold_opt (fun px '(x, y, z) => option_bind (getPixel_xyz (sz imIn) (pixs imIn) x y z) (fun v =>
             option_bind (setPixel_xyz so px (pick l0 x y z) (pick l1 x y z) (pick l2 x y z) v) (fun r => Some (snd r)))) order px0
        = fold_opt (fun px0 i => option_bind ((fun '(x, y, z) => option_bind (getPixel_xyz s (pixs imIn) x y z) (fun v =>
          Some (voxel_offset (dw so) (dh so) (pick l0 x y z) (pick l1 x y z) (pick l2 x y z), v))) i) (fun av => wr px0 (fst av) (snd av))) order px0) as G.
      { induction order as [|[[x y] z] order IH]; intros px0 HLx Hord; [reflexivity|]. cbn [fold_opt].
        assert (inside s x y z) as Hi by (apply grid_In, Hord; left; reflexivity).
        pose proof Hi as (? & ? & ?).
        destruct (getPixel_ok s (pixs imIn) x y z Sm (proj2 Wi)) as (v & Ev & Hv & _); try lia. fold s. rewrite Ev. cbn [option_bind fst snd].
        pose proof (Hin x y z Hi) as Hio.
        destruct (setPixel_getPixel so px0 _ _ _ v Sso HLx Hio) as (px1 & E1 & L1 & R1 & R2).
        rewrite E1. cbn [option_bind snd].
        assert (wr px0 (voxel_offset (dw so) (dh so) (pick l0 x y z) (pick l1 x y z) (pick l2 x y z)) v = Some px1) as ->.
        { revert E1. unfold setPixel_xyz. pose proof Hio as (? & ? & ?). pose proof Sso as (? & ? & ? & ?).
          pose proof (inside_range _ _ _ _ Hio). rewrite !(to_size_id (pick _ _ _ _)) by lia.
          match goal with |- context [if ?c then _ else _] => destruct c end; [|discriminate].
          rewrite to_size_id; [|unfold voxel_offset in *; nia].
          replace (pick l2 x y z * dw so * dh so + pick l1 x y z * dw so + pick l0 x y z) with
            (voxel_offset (dw so) (dh so) (pick l0 x y z) (pick l1 x y z) (pick l2 x y z)) by (unfold voxel_offset; ring).
          destruct (wr _ _ _); cbn; congruence. }
        apply IH; [rewrite L1; exact HLx|]. intros c Hc. apply Hord. right. exact Hc. }
      rewrite Eo. apply G; [pose proof W as (_ & WL); rewrite Eo in WL; exact WL|]. intros c. apply HS.
    + split; [exact Wpx|]. split; [exact Eo|]. intros x y z Hi. specialize (H (x, y, z)). cbn in H. apply H.
      apply HS, grid_In. exact Hi.
Qed.
