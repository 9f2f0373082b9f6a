From Verif Require Export Model.Loops Spec.ImageSpec Proofs.ImageFacts.

Lemma grid_In nx ny nz x y z : In (x, y, z) (grid nx ny nz) <-> 0 <= x < nx /\ 0 <= y < ny /\ 0 <= z < nz.
Proof.
  unfold grid. rewrite in_flat_map. split.
  - intros (z' & Hz & H). apply in_flat_map in H as (y' & Hy & H). apply in_map_iff in H as (x' & E & Hx).
    injection E as -> -> ->. rewrite zseq_In in *. auto.
  - intros (Hx & Hy & Hz). exists z. split; [apply zseq_In; exact Hz|]. apply in_flat_map. exists y.
    split; [apply zseq_In; exact Hy|]. apply in_map_iff. exists x. split; [reflexivity|apply zseq_In; exact Hx].
Qed.

Lemma scatter_ok {I} (body : I -> option (Z * Z)) (addr val : I -> Z) order px :
  (forall i, In i order -> body i = Some (addr i, val i) /\ 0 <= addr i < Z.of_nat (length px)) ->
  (forall i j, In i order -> In j order -> addr i = addr j -> val i = val j) ->
  exists px', scatter body order px = Some px' /\ length px' = length px /\
    (forall i, In i order -> rd px' (addr i) = Some (val i)) /\
    (forall a, (forall i, In i order -> addr i <> a) -> rd px' a = rd px a).
Proof.
  intros HB HF.
  destruct (fold_opt_inv (fun done px' => length px' = length px /\
    (forall i, In i done -> rd px' (addr i) = Some (val i)) /\
    (forall a, (forall i, In i done -> addr i <> a) -> rd px' a = rd px a))
    (fun px i => option_bind (body i) (fun av => wr px (fst av) (snd av))) order px) as (px' & E & H).
  - repeat split; auto. intros i [].
  - intros done i todo b El (HL & H1 & H2).
    assert (In i order) as Hi by (rewrite El; apply in_elt).
    destruct (HB i Hi) as (Eb & Hr). rewrite Eb. cbn.
    destruct (wr_Some b (addr i) (val i)) as (b' & E); [lia|]. rewrite E. exists b'. split; [reflexivity|].
    split; [rewrite (wr_length _ _ _ _ E); exact HL|]. split.
    + intros j Hj. rewrite (rd_wr _ _ _ _ _ E). destruct (Z.eqb_spec (addr i) (addr j)) as [Ea|Ea].
      * f_equal. apply HF; auto. rewrite El. apply in_app_iff in Hj as [Hj|[<-|[]]]; apply in_app_iff; cbn; auto.
      * apply in_app_iff in Hj as [Hj|[<-|[]]]; [auto|congruence].
    + intros a Ha. rewrite (rd_wr _ _ _ _ _ E).
      destruct (Z.eqb_spec (addr i) a) as [Ea|Ea]; [exfalso; apply (Ha i); [apply in_elt|exact Ea]|].
      apply H2. intros j Hj. apply Ha. apply in_app_iff; auto.
  - exists px'. tauto.
Qed.

Lemma voxel_inj s x y z x' y' z' : inside s x y z -> inside s x' y' z' ->
  voxel_offset (dw s) (dh s) x y z = voxel_offset (dw s) (dh s) x' y' z' -> x = x' /\ y = y' /\ z = z'.
Proof.
  unfold inside, voxel_offset. intros (Hx & Hy & Hz) (Hx' & Hy' & Hz') E.
  assert (x = x' /\ y + dh s * z = y' + dh s * z') as (-> & E2).
  { assert (y + dh s * z = y' + dh s * z'); [|split; [nia|assumption]].
    transitivity ((x + dw s * (y + dh s * z)) / dw s).
    - rewrite (Z.mul_comm (dw s)), Z.div_add, Z.div_small by lia. lia.
    - rewrite E, (Z.mul_comm (dw s)), Z.div_add, Z.div_small by lia. lia. }
  assert (z = z'); [|subst; repeat split; lia].
  transitivity ((y + dh s * z) / dh s).
  - rewrite (Z.mul_comm (dh s)), Z.div_add, Z.div_small by lia. lia.
  - rewrite E2, (Z.mul_comm (dh s)), Z.div_add, Z.div_small by lia. lia.
Qed.

Lemma voxel_surj s off : wf_dims s -> 0 <= off < dw s * dh s * dd s ->
  exists x y z, inside s x y z /\ off = voxel_offset (dw s) (dh s) x y z.
Proof.
  intros (H1 & H2 & H3) Ho. assert (0 < dw s) by nia. assert (0 < dh s) by nia.
  exists (off mod dw s), (off / dw s mod dh s), (off / dw s / dh s). unfold inside, voxel_offset.
  pose proof (Z.div_mod off (dw s) ltac:(lia)) as D1. pose proof (Z.div_mod (off / dw s) (dh s) ltac:(lia)) as D2.
  pose proof (Z.mod_pos_bound off (dw s) ltac:(lia)). pose proof (Z.mod_pos_bound (off / dw s) (dh s) ltac:(lia)).
  assert (0 <= off / dw s / dh s < dd s).
  { split; [apply Z.div_pos; [apply Z.div_pos|]; lia|].
    rewrite Z.div_div by lia. apply Z.div_lt_upper_bound; lia. }
  repeat split; lia.
Qed.

Lemma pixel_is_fun im x y z v v' : pixel_is im x y z v -> pixel_is im x y z v' -> v = v'.
Proof. intros (_ & H) (_ & H'). congruence. Qed.

Lemma pixel_exists im x y z : wf_img im -> inside (sz im) x y z -> exists v, pixel_is im x y z v.
Proof.
  intros (_ & HL) Hi. destruct (rd_in_range (pixs im) (voxel_offset (dw (sz im)) (dh (sz im)) x y z)) as (v & E).
  - rewrite HL. apply inside_range. exact Hi.
  - exists v. split; assumption.
Qed.

Lemma img_ext im im' : wf_img im -> wf_img im' -> sz im = sz im' ->
  (forall x y z v, pixel_is im x y z v -> pixel_is im' x y z v) -> im = im'.
Proof.
  intros (Hw & HL) (Hw' & HL') Es H. destruct im as [s px], im' as [s' px']. cbn in *. subst s'. f_equal.
  apply list_ext_rd; [lia|]. intros i Hi. rewrite HL in Hi.
  destruct (voxel_surj s i Hw Hi) as (x & y & z & Hin & ->).
  destruct (rd_in_range px (voxel_offset (dw s) (dh s) x y z)) as (v & E); [lia|]. rewrite E.
  destruct (H x y z v (conj Hin E)) as (_ & E'). symmetry. exact E'.
Qed.

Lemma pix_at_is im x y z v : wf_img im -> pixel_is im x y z v -> pix_at im x y z = Some v.
Proof.
  intros (Hw & _) (Hi & E). unfold pix_at. rewrite slice_access_wf by assumption. cbn. exact E.
Qed.

(** A loop over voxels writing the voxel [tgt c] of an image. *)
Lemma scatter_voxels (body : Z * Z * Z -> option (Z * Z)) (tgt : Z * Z * Z -> Z * Z * Z) (val : Z * Z * Z -> Z) order s px :
  wf_img (Img s px) ->
  (forall c, In c order -> let '(x, y, z) := tgt c in
     inside s x y z /\ body c = Some (voxel_offset (dw s) (dh s) x y z, val c)) ->
  (forall c c', In c order -> In c' order -> tgt c = tgt c' -> val c = val c') ->
  exists px', scatter body order px = Some px' /\ wf_img (Img s px') /\
    (forall c, In c order -> let '(x, y, z) := tgt c in pixel_is (Img s px') x y z (val c)) /\
    (forall x y z v, (forall c, In c order -> tgt c <> (x, y, z)) ->
       (pixel_is (Img s px') x y z v <-> pixel_is (Img s px) x y z v)).
Proof.
  intros (Hw & HL) HB HF. cbn in Hw, HL.
  set (addr := fun c => let '(x, y, z) := tgt c in voxel_offset (dw s) (dh s) x y z).
  destruct (scatter_ok body addr val order px) as (px' & E & HL' & H1 & H2).
  - intros c Hc. specialize (HB c Hc). unfold addr. destruct (tgt c) as [[x y] z]. destruct HB as (Hi & E).
    split; [exact E|]. rewrite HL. apply inside_range. exact Hi.
  - intros c c' Hc Hc' Ea. apply HF; auto. pose proof (HB c Hc) as B. pose proof (HB c' Hc') as B'.
    unfold addr in Ea. destruct (tgt c) as [[x y] z], (tgt c') as [[x' y'] z']. destruct B as (B & _), B' as (B' & _).
    destruct (voxel_inj s x y z x' y' z' B B' Ea) as (-> & -> & ->). reflexivity.
  - exists px'. split; [exact E|]. split; [split; cbn; [exact Hw|lia]|]. split.
    + intros c Hc. specialize (HB c Hc). specialize (H1 c Hc). unfold addr in H1.
      destruct (tgt c) as [[x y] z]. destruct HB as (Hi & _). split; assumption.
    + intros x y z v Hn. unfold pixel_is. cbn. split; intros (Hi & R); (split; [exact Hi|]).
      * rewrite H2 in R; [exact R|]. intros c Hc Ea. pose proof (HB c Hc) as B. unfold addr in Ea. pose proof (Hn c Hc) as N.
        destruct (tgt c) as [[x' y'] z']. destruct B as (B & _).
        destruct (voxel_inj s x' y' z' x y z B Hi Ea) as (-> & -> & ->). congruence.
      * rewrite H2; [exact R|]. intros c Hc Ea. pose proof (HB c Hc) as B. unfold addr in Ea. pose proof (Hn c Hc) as N.
        destruct (tgt c) as [[x' y'] z']. destruct B as (B & _).
        destruct (voxel_inj s x' y' z' x y z B Hi Ea) as (-> & -> & ->). congruence.
Qed.

Lemma setSize_wf junk im s : wf_img im -> wf_dims s -> wf_img (setSize junk im s) /\ sz (setSize junk im s) = s.
Proof.
  intros Hw Hs. unfold setSize, width, height, depth. destruct (_ && _) eqn:E.
  - split; [exact Hw|]. destruct im as [[a b c] px], s as [a' b' c']. cbn in *. f_equal; lia.
  - split; [|reflexivity]. split; [exact Hs|]. cbn. rewrite map_length, zseq_length, pixelCount_dims.
    destruct Hs as (? & ? & ?). rewrite Z2Nat.id; [reflexivity|]. apply Z.mul_nonneg_nonneg; [|assumption].
    apply Z.mul_nonneg_nonneg; assumption.
Qed.

Lemma small_wf s : small s -> wf_dims s.
Proof. unfold small, wf_dims. tauto. Qed.
