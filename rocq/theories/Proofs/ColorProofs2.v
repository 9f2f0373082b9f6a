(** Proofs about colour images: splitting, merging, RGB lines. *)
From Verif Require Export Proofs.ColorProofs.
Local Open Scope Z_scope.

Lemma plane_offset w h x y k : voxel_offset w h x y k = k * (w * h) + voxel_offset w h x y 0.
Proof. unfold voxel_offset. ring. Qed.
Lemma plane_range s x y k : wf_dims s -> inside s x y k -> 0 <= voxel_offset (dw s) (dh s) x y 0 < dw s * dh s.
Proof.
  intros (A & B & C) (Hx & Hy & Hk). pose proof (inside_range (Dims (dw s) (dh s) 1) x y 0) as H. cbn in H.
  assert (I : inside (Dims (dw s) (dh s) 1) x y 0) by (unfold inside; cbn; lia). specialize (H I). lia.
Qed.

Lemma split_ok t junk n im out : wf_cimg n im -> wf_img out -> 0 < dd (csz im) -> plane_fits (csz im) ->
  exists out', splitChannels t junk im out = Some (1, out') /\ wf_img out' /\ sz out' = Dims (dw (csz im)) (dh (csz im)) (Z.of_nat n) /\
    forall k x y v, chan_is im k x y 0 v -> pixel_is out' x y k (wrap t v).
Proof.
  intros W Wo Hd (Fw & Fh & Fp). pose proof W as (Ln & (Dw & Dh & Dd) & Wc). unfold splitChannels. rewrite Ln, (u32_id (dw (csz im))), (u32_id (dh (csz im))), (u32_id (dw (csz im) * dh (csz im))) by (try split; try lia; apply Z.mul_nonneg_nonneg; lia). set (w := dw (csz im)) in *. set (h := dh (csz im)) in *.
  assert (P : 0 <= w * h) by nia.
  destruct (LoopFacts.setSize_wf junk out (Dims w h (Z.of_nat n)) Wo) as (Ws & Es); [repeat split; cbn; lia|]. set (out0 := setSize junk out _) in *.
  pose proof Ws as (Wsd & Lo). rewrite Es in Lo. cbn in Lo.
  destruct (fold_opt_inv (fun done px => Z.of_nat (length px) = w * h * Z.of_nat n /\ forall k c i v, In k done -> rd (chans im) k = Some c -> 0 <= i < w * h -> rd c i = Some v -> rd px (k * (w * h) + i) = Some (wrap t v))
    (fun px i => option_bind (rd (chans im) i) (fun c => copy_line t c 0 (w * h) px (i * (w * h)))) (zseq (Z.of_nat n)) (pixs out0)) as (px & E & Lp & V).
  - split; [exact Lo|]. intros k c i v [].
  - intros done k todo px Eq (Lp & V). assert (Hk : 0 <= k < Z.of_nat n) by (apply zseq_In; rewrite Eq; apply in_or_app; right; left; reflexivity).
    destruct (rd_in_range (chans im) k ltac:(lia)) as (c & Ec). rewrite Ec. cbn [option_bind].
    destruct (wf_count _ _ (chan_rd _ _ _ _ W Ec)) as (Lc & _). rewrite pixelCount_dims in Lc. fold w h in Lc.
    destruct (copy_line_ok t c 0 (w * h) px (k * (w * h))) as (px' & E & L & VV & O); [lia|lia|nia|nia|nia|].
    exists px'. split; [exact E|]. split; [lia|]. intros k' c' i v Hin Ec' Hi Hv. apply in_app_or in Hin.
    destruct (Z.eq_dec k' k) as [->|N].
    + rewrite Ec in Ec'. injection Ec' as <-. apply VV; [exact Hi|exact Hv].
    + rewrite O by nia. destruct Hin as [Hin|[->|[]]]; [|congruence]. apply (V _ _ _ _ Hin Ec' Hi Hv).
  - rewrite E. cbn [option_bind]. eexists. split; [reflexivity|]. split; [split; [exact Wsd|cbn [sz pixs]; rewrite Es; exact Lp]|]. split; [exact Es|].
    intros k x y v (c & Hc & Hin & Hv). unfold channel in Hc. destruct (rd (chans im) k) as [c0|] eqn:Ec; [|discriminate]. injection Hc as <-. cbn [sz pixs] in *.
    pose proof (rd_Some_range _ _ _ Ec) as Rk. rewrite Ln in Rk. destruct Hin as (Hx & Hy & Hz).
    split; cbn [sz pixs]; rewrite Es; cbn [dw dh dd]; [unfold inside; cbn; lia|]. rewrite plane_offset. fold w h in Hv.
    apply (V k c0); [apply zseq_In; lia|exact Ec| |exact Hv]. apply (plane_range (csz im) x y 0); [repeat split; lia|unfold inside; lia].
Qed.

Lemma csetSize_wf junk n im s : wf_cimg n im -> wf_dims s -> wf_cimg n (csetSize junk n im s) /\ csz (csetSize junk n im s) = s.
Proof.
  intros W Ws. unfold csetSize. fold (same_dims s (csz im)). destruct (same_dims s (csz im)) eqn:E.
  - apply same_dims_ok in E. split; [exact W|congruence].
  - split; [|reflexivity]. split; [apply repeat_length|]. split; [exact Ws|]. cbn [chans csz]. intros c Hc. apply repeat_spec in Hc. subst c.
    split; [exact Ws|]. cbn [pixs sz]. rewrite map_length, zseq_length, pixelCount_dims. destruct Ws as (? & ? & ?). rewrite Z2Nat.id; nia.
Qed.

Lemma merge_ok t junk n im out : wf_img im -> wf_cimg n out -> dd (sz im) = Z.of_nat n -> plane_fits (sz im) ->
  exists out', mergeChannels t junk n im out = Some (1, out') /\ wf_cimg n out' /\ csz out' = Dims (dw (sz im)) (dh (sz im)) 1 /\
    forall k x y v, pixel_is im x y k v -> chan_is out' k x y 0 (wrap t v).
Proof.
  intros Wi Wo Hn (Fw & Fh & Fp). pose proof Wi as ((Dw & Dh & Dd) & Li). unfold mergeChannels. rewrite Hn, Z.eqb_refl, (u32_id (dw (sz im))), (u32_id (dh (sz im))), (u32_id (dw (sz im) * dh (sz im))) by (try split; try lia; apply Z.mul_nonneg_nonneg; lia). cbn [negb].
  set (w := dw (sz im)) in *. set (h := dh (sz im)) in *. assert (P : 0 <= w * h) by nia.
  destruct (csetSize_wf junk n out (Dims w h 1) Wo) as (Ws & Es); [repeat split; cbn; lia|]. set (out0 := csetSize junk n out _) in *.
  destruct (fold_opt_inv (fun done cs => wf_cimg n (CImg (Dims w h 1) cs) /\ forall k i v, In k done -> 0 <= i < w * h -> rd (pixs im) (k * (w * h) + i) = Some v -> exists c, rd cs k = Some c /\ rd c i = Some (wrap t v))
    (fun cs i => option_bind (rd cs i) (fun c => option_bind (copy_line t (pixs im) (i * (w * h)) (w * h) c 0) (fun c => wr cs i c))) (zseq (Z.of_nat n)) (chans out0)) as (cs & E & Wc & V).
  - split; [rewrite <- Es; destruct out0; exact Ws|]. intros k i v [].
  - intros done k todo cs Eq (Wc & V). assert (Hk : 0 <= k < Z.of_nat n) by (apply zseq_In; rewrite Eq; apply in_or_app; right; left; reflexivity).
    pose proof Wc as (Ln & Wd & Wcs). cbn [chans csz] in *.
    destruct (rd_in_range cs k ltac:(lia)) as (c & Ec). rewrite Ec. cbn [option_bind].
    destruct (wf_count _ _ (Wcs c (rd_In _ _ _ Ec))) as (Lc & _). rewrite pixelCount_dims in Lc. cbn [dw dh dd] in Lc.
    destruct (copy_line_ok t (pixs im) (k * (w * h)) (w * h) c 0) as (c' & E & L & VV & O); [lia|nia|nia|nia|nia|]. rewrite E. cbn [option_bind].
    destruct (wr_Some cs k c' ltac:(lia)) as (cs' & Ew). rewrite Ew. exists cs'. split; [reflexivity|]. split.
    + split; [cbn [chans]; rewrite (wr_length _ _ _ _ Ew); exact Ln|]. split; [exact Wd|]. cbn [chans csz]. intros d Hd. apply In_rd in Hd as (j & _ & Hj). rewrite (rd_wr _ _ _ _ j Ew) in Hj.
      destruct (k =? j); [|apply Wcs; apply (rd_In _ _ _ Hj)]. injection Hj as <-. split; [exact Wd|]. cbn [pixs sz]. rewrite L. apply (Wcs c (rd_In _ _ _ Ec)).
    + intros k' i v Hin Hi Hv. rewrite (rd_wr _ _ _ _ k' Ew). apply in_app_or in Hin. destruct (Z.eqb_spec k k') as [<-|N].
      * exists c'. split; [reflexivity|]. replace i with (0 + i) by lia. apply VV; assumption.
      * destruct Hin as [Hin|[->|[]]]; [|congruence]. apply V; assumption.
  - rewrite E. cbn [option_bind]. eexists. split; [reflexivity|]. rewrite Es. split; [exact Wc|]. split; [reflexivity|].
    intros k x y v (Hin & Hv). fold w h in Hv. rewrite plane_offset in Hv. pose proof Hin as (Hx & Hy & Hz).
    destruct (V k (voxel_offset w h x y 0) v) as (c & Ec & Hc); [apply zseq_In; lia|apply (plane_range (sz im) x y k); [repeat split; lia|exact Hin]|exact Hv|].
    exists (Img (Dims w h 1) c). unfold channel. cbn [chans csz]. rewrite Ec. split; [reflexivity|]. split; [unfold inside; cbn; fold w h; fold w in Hx; fold h in Hy; lia|exact Hc].
Qed.

Lemma cimg_ext n im im' : wf_cimg n im -> wf_cimg n im' -> csz im = csz im' ->
  (forall k x y z v, chan_is im k x y z v -> chan_is im' k x y z v) -> im = im'.
Proof.
  intros W W' Es H. destruct im as [s cs], im' as [s' cs']. cbn in Es. subst s'. f_equal. pose proof W as (L & _). pose proof W' as (L' & _). cbn in L, L'.
  apply list_ext_rd; [congruence|]. intros k Hk. destruct (rd_in_range cs k Hk) as (c & Ec). destruct (rd_in_range cs' k ltac:(lia)) as (c' & Ec'). rewrite Ec, Ec'. f_equal.
  assert (E : Img s c = Img s c'); [|injection E; auto].
  apply img_ext; [apply (chan_rd _ _ _ _ W Ec)|apply (chan_rd _ _ _ _ W' Ec')|reflexivity|].
  intros x y z v Hp. destruct (H k x y z v) as (d & Ed & Hd); [exists (Img s c); unfold channel; cbn; rewrite Ec; auto|].
  unfold channel in Ed. cbn in Ed. rewrite Ec' in Ed. injection Ed as <-. exact Hd.
Qed.
Lemma chan_typed t im k x y z v : typed_cimg t im -> chan_is im k x y z v -> inty t v.
Proof.
  intros T (c & Hc & _ & Hv). unfold channel in Hc. destruct (rd (chans im) k) as [d|] eqn:E; [|discriminate]. injection Hc as <-. cbn in Hv.
  specialize (T d (rd_In _ _ _ E)). rewrite Forall_forall in T. apply T. apply (rd_In _ _ _ Hv).
Qed.

Lemma split_merge_ok t t' junk junk' n im out back : wf_cimg n im -> wf_img out -> wf_cimg n back -> dd (csz im) = 1 -> plane_fits (csz im) -> typed_cimg t im -> typed_cimg t' im ->
  exists out', splitChannels t' junk im out = Some (1, out') /\ mergeChannels t junk' n out' back = Some (1, im).
Proof.
  intros W Wo Wb Hd F T T'. destruct (split_ok t' junk n im out W Wo ltac:(lia) F) as (out' & E & Wo' & Es & V).
  destruct (merge_ok t junk' n out' back Wo' Wb) as (im' & E' & W' & Es' & V'); [rewrite Es; reflexivity|rewrite Es; exact F|].
  exists out'. split; [exact E|]. rewrite E'. do 2 f_equal. symmetry. apply (cimg_ext n); [exact W|exact W'| |].
  - rewrite Es', Es. cbn. rewrite <- Hd. destruct (csz im); reflexivity.
  - intros k x y z v Hv. assert (z = 0) as -> by (destruct Hv as (c & Hc & (_ & _ & Hz) & _); unfold channel in Hc; destruct (rd (chans im) k); [|discriminate]; injection Hc as <-; cbn in Hz; lia).
    rewrite <- (wrap_id t v) by (apply (chan_typed t im k x y 0 v T Hv)). apply V'. rewrite <- (wrap_id t' v) by (apply (chan_typed t' im k x y 0 v T' Hv)). apply V. exact Hv.
Qed.
Lemma merge_split_ok t t' junk junk' n im out back : wf_img im -> wf_cimg n out -> wf_img back -> dd (sz im) = Z.of_nat n -> plane_fits (sz im) -> typed_img t im -> typed_img t' im ->
  exists out', mergeChannels t' junk n im out = Some (1, out') /\ splitChannels t junk' out' back = Some (1, im).
Proof.
  intros W Wo Wb Hd F T T'. destruct (merge_ok t' junk n im out W Wo Hd F) as (out' & E & Wo' & Es & V).
  destruct (split_ok t junk' n out' back Wo' Wb) as (im' & E' & W' & Es' & V'); [rewrite Es; cbn; lia|rewrite Es; exact F|].
  exists out'. split; [exact E|]. rewrite E'. do 2 f_equal. symmetry. apply img_ext; [exact W|exact W'| |].
  - rewrite Es', Es. cbn. rewrite <- Hd. destruct (sz im); reflexivity.
  - intros x y z v Hv. unfold typed_img in T, T'. rewrite Forall_forall in T, T'. pose proof (rd_In _ _ _ (proj2 Hv)) as Hi.
    rewrite <- (wrap_id t v) by auto. apply V'. rewrite <- (wrap_id t' v) by auto. apply V. exact Hv.
Qed.

(** ** RGB lines *)
Lemma rgb_channel f (c1 c2 c : list Z) size : size <= Z.of_nat (length c1) -> size <= Z.of_nat (length c2) -> size <= Z.of_nat (length c) ->
  exists c', scatter (fun i => option_bind (rd c1 i) (fun a => option_map (fun b => (i, f a b)) (rd c2 i))) (zseq size) c = Some c' /\ length c' = length c /\
    (forall i, 0 <= i < size -> znth 0 c' i = f (znth 0 c1 i) (znth 0 c2 i)) /\ (forall i, size <= i -> znth 0 c' i = znth 0 c i).
Proof.
  intros H1 H2 H3. destruct (scatter_ok (fun i => option_bind (rd c1 i) (fun a => option_map (fun b => (i, f a b)) (rd c2 i))) (fun i => i) (fun i => f (znth 0 c1 i) (znth 0 c2 i)) (zseq size) c) as (c' & E & L & V & O).
  - intros i Hi. apply zseq_In in Hi. rewrite (rd_znth 0 c1), (rd_znth 0 c2) by lia. split; [reflexivity|lia].
  - intros i j _ _ ->. reflexivity.
  - exists c'. split; [exact E|]. split; [exact L|]. split.
    + intros i Hi. unfold znth at 1. rewrite V by (apply zseq_In; lia). reflexivity.
    + intros i Hi. unfold znth. rewrite O; [reflexivity|]. intros j Hj. apply zseq_In in Hj. lia.
Qed.
Lemma rgb_line_ok f in1 in2 size out : rgb_has size in1 -> rgb_has size in2 -> rgb_has size out ->
  exists out', rgb_line f in1 in2 size out = Some out' /\ map (@length Z) out' = map (@length Z) out /\
    (forall i, 0 <= i < size -> colour_at out' i = map2 f (colour_at in1 i) (colour_at in2 i)) /\
    (forall i, size <= i -> colour_at out' i = colour_at out i).
Proof.
  intros (L1 & H1) (L2 & H2) (L & H). destruct in1 as [|a0 [|a1 [|a2 [|]]]]; try discriminate. destruct in2 as [|b0 [|b1 [|b2 [|]]]]; try discriminate. destruct out as [|c0 [|c1 [|c2 [|]]]]; try discriminate.
  destruct (rgb_channel f a0 b0 c0 size) as (d0 & E0 & N0 & V0 & O0); [apply H1; cbn; auto|apply H2; cbn; auto|apply H; cbn; auto|].
  destruct (rgb_channel f a1 b1 c1 size) as (d1 & E1 & N1 & V1 & O1); [apply H1; cbn; auto|apply H2; cbn; auto|apply H; cbn; auto|].
  destruct (rgb_channel f a2 b2 c2 size) as (d2 & E2 & N2 & V2 & O2); [apply H1; cbn; auto|apply H2; cbn; auto|apply H; cbn; auto|].
  exists [d0; d1; d2]. split.
  - unfold rgb_line. change (zseq 3) with [0; 1; 2]. cbn [fold_opt].
    change (rd [a0; a1; a2] 0) with (Some a0). change (rd [b0; b1; b2] 0) with (Some b0). change (rd [c0; c1; c2] 0) with (Some c0). cbn [option_bind]. rewrite E0. cbn [option_bind].
    change (wr [c0; c1; c2] 0 d0) with (Some [d0; c1; c2]). cbn [option_bind].
    change (rd [a0; a1; a2] 1) with (Some a1). change (rd [b0; b1; b2] 1) with (Some b1). change (rd [d0; c1; c2] 1) with (Some c1). cbn [option_bind]. rewrite E1. cbn [option_bind].
    change (wr [d0; c1; c2] 1 d1) with (Some [d0; d1; c2]). cbn [option_bind].
    change (rd [a0; a1; a2] 2) with (Some a2). change (rd [b0; b1; b2] 2) with (Some b2). change (rd [d0; d1; c2] 2) with (Some c2). cbn [option_bind]. rewrite E2. reflexivity.
  - cbn. rewrite N0, N1, N2. split; [reflexivity|]. split; intros i Hi.
    + rewrite V0, V1, V2 by exact Hi. reflexivity.
    + rewrite O0, O1, O2 by exact Hi. reflexivity.
Qed.
Lemma map2_max_sup a : forall b, length a = length b -> supremum a b (map2 (fun x y => if x >? y then x else y) a b).
Proof.
  induction a as [|x a IH]; intros [|y b] L; cbn in L; try discriminate; cbn [map2].
  - split; [constructor|]. split; [constructor|]. intros u H _. exact H.
  - destruct (IH b ltac:(congruence)) as (A & B & C). destruct (Z.gtb_spec x y).
    + split; [constructor; [lia|exact A]|]. split; [constructor; [lia|exact B]|]. intros u H1 H2. inversion H1; subst. inversion H2; subst. constructor; [lia|apply C; assumption].
    + split; [constructor; [lia|exact A]|]. split; [constructor; [lia|exact B]|]. intros u H1 H2. inversion H1; subst. inversion H2; subst. constructor; [lia|apply C; assumption].
Qed.
Lemma map2_min_inf a : forall b, length a = length b -> infimum a b (map2 (fun x y => if x <? y then x else y) a b).
Proof.
  induction a as [|x a IH]; intros [|y b] L; cbn in L; try discriminate; cbn [map2].
  - split; [constructor|]. split; [constructor|]. intros u H _. exact H.
  - destruct (IH b ltac:(congruence)) as (A & B & C). destruct (Z.ltb_spec x y).
    + split; [constructor; [lia|exact A]|]. split; [constructor; [lia|exact B]|]. intros u H1 H2. inversion H1; subst. inversion H2; subst. constructor; [lia|apply C; assumption].
    + split; [constructor; [lia|exact A]|]. split; [constructor; [lia|exact B]|]. intros u H1 H2. inversion H1; subst. inversion H2; subst. constructor; [lia|apply C; assumption].
Qed.
Lemma colour_length l i : length (colour_at l i) = length l.
Proof. apply map_length. Qed.

(** The volume is maximal only for white images. *)
Lemma sum_white c n : Z.of_nat (length c) = n -> Forall (inty UINT8) c -> fold_right Z.add 0 c <= 255 * n /\ (fold_right Z.add 0 c = 255 * n <-> forall v, In v c -> v = 255).
Proof.
  revert n. induction c as [|v c IH]; intros n L T.
  - cbn in *. subst n. split; [lia|]. split; [intros _ v []|reflexivity].
  - inversion T as [|? ? Hv Tc]; subst. destruct (IH (Z.of_nat (length c)) eq_refl Tc) as (B & Q). unfold inty in Hv. cbn in Hv. cbn [fold_right length]. rewrite Nat2Z.inj_succ, Z.mul_succ_r. split; [lia|]. split.
    + intros E w [<-|Hw]; [lia|]. apply Q; [lia|exact Hw].
    + intros E. rewrite (E v (or_introl eq_refl)). rewrite (proj2 Q); [lia|]. intros w Hw. apply E. right; exact Hw.
Qed.
Lemma rgb_bool_ok im : wf_cimg 3 im -> typed_cimg UINT8 im -> rgb_bool im = true <-> forall k x y z v, chan_is im k x y z v -> v = 255.
Proof.
  intros W T. pose proof W as (L & Wd & Wc). destruct im as [s cs]. cbn [csz chans] in *. destruct cs as [|c0 [|c1 [|c2 [|]]]]; try discriminate.
  assert (P : forall k c, rd [c0; c1; c2] k = Some c -> Z.of_nat (length c) = pixelCount s /\ Forall (inty UINT8) c).
  { intros k c E. split; [apply (wf_count s c (Wc c (rd_In _ _ _ E)))|apply T; apply (rd_In _ _ _ E)]. }
  destruct (P 0 c0 eq_refl) as (L0 & T0). destruct (P 1 c1 eq_refl) as (L1 & T1). destruct (P 2 c2 eq_refl) as (L2 & T2). clear P.
  destruct (sum_white _ _ L0 T0) as (B0 & Q0). destruct (sum_white _ _ L1 T1) as (B1 & Q1). destruct (sum_white _ _ L2 T2) as (B2 & Q2).
  unfold rgb_bool, rgb_vol. cbn [firstn chans csz map fold_right]. rewrite Z.eqb_eq. split.
  - intros E k x y z v (c & Hc & _ & Hv). unfold channel in Hc. cbn [chans csz] in Hc. destruct (rd [c0; c1; c2] k) as [d|] eqn:Ek; [|discriminate]. injection Hc as <-. cbn [pixs sz] in Hv. apply rd_In in Hv. apply rd_In in Ek.
    destruct Ek as [<-|[<-|[<-|[]]]]; [apply Q0|apply Q1|apply Q2]; auto; lia.
  - intros E.
    assert (P : forall k c, rd [c0; c1; c2] k = Some c -> forall v, In v c -> v = 255).
    { intros k c Ek v Hv. apply In_rd in Hv as (i & Hi & Hv). destruct (Wc c (rd_In _ _ _ Ek)) as (_ & Lc). cbn [pixs sz] in Lc. rewrite Lc in Hi. destruct (voxel_surj s i Wd Hi) as (x & y & z & Hin & ->).
      apply (E k x y z v). exists (Img s c). unfold channel. cbn [chans csz]. rewrite Ek. split; [reflexivity|]. split; [exact Hin|exact Hv]. }
    rewrite (proj2 Q0 (P 0 c0 eq_refl)), (proj2 Q1 (P 1 c1 eq_refl)), (proj2 Q2 (P 2 c2 eq_refl)). lia.
Qed.

(** ** Comparisons of images *)
Lemma read_colour (cs : list (list Z)) i : 0 <= i < 2 ^ 32 -> (forall c, In c cs -> i < Z.of_nat (length c)) -> carr_read cs (carr_new (length cs)) i = Some (colour_at cs i).
Proof.
  intros Hi H. unfold carr_read, item_values, carr_item, carr_new. cbn [refs ptrs cidx]. rewrite u32_id by lia. rewrite (Z.add_0_l i). unfold colour_at.
  induction cs as [|c cs IH]; [reflexivity|]. cbn. rewrite (rd_znth 0 c i) by (split; [lia|apply H; left; reflexivity]).
  rewrite IH by (intros d Hd; apply H; right; exact Hd). reflexivity.
Qed.
Lemma colour_read n im i : wf_cimg n im -> 0 <= i < pixelCount (csz im) -> pixelCount (csz im) < 2 ^ 32 -> carr_read (chans im) (carr_new (length (chans im))) i = Some (colour_at (chans im) i).
Proof. intros (_ & _ & W) Hi L. apply read_colour; [lia|]. intros c Hc. destruct (wf_count _ _ (W c Hc)). lia. Qed.
Lemma colour_rd l i k : rd (colour_at l i) k = option_map (fun c => znth 0 c i) (rd l k).
Proof. apply rd_map. Qed.
Lemma chan_colour n im k x y z v : wf_cimg n im -> inside (csz im) x y z -> chan_is im k x y z v <-> rd (colour_at (chans im) (voxel_offset (dw (csz im)) (dh (csz im)) x y z)) k = Some v.
Proof.
  intros W Hin. rewrite colour_rd. unfold chan_is, channel. destruct (rd (chans im) k) as [c|] eqn:E; cbn [option_map].
  - assert (R : rd c (voxel_offset (dw (csz im)) (dh (csz im)) x y z) = Some (znth 0 c (voxel_offset (dw (csz im)) (dh (csz im)) x y z))).
    { apply rd_znth. destruct (chan_rd _ _ _ _ W E) as (_ & L). cbn in L. rewrite L. apply inside_range. exact Hin. }
    split.
    + intros (d & [= <-] & _ & Hv). cbn [pixs sz] in Hv. congruence.
    + intros [= <-]. exists (Img (csz im) c). split; [reflexivity|]. split; [exact Hin|exact R].
  - split; [intros (d & [=] & _)|discriminate].
Qed.
Lemma mc_ne_false a b : length a = length b -> mc_ne a b = false <-> exists k v, rd a k = Some v /\ rd b k = Some v.
Proof.
  intros L. split.
  - revert b L. induction a as [|x a IH]; intros [|y b] L; cbn in L; try discriminate. cbn. destruct (Z.eqb_spec x y) as [<-|N].
    + intros _. exists 0, x. split; reflexivity.
    + intros H. destruct (IH b ltac:(congruence) H) as (k & v & A & B). exists (k + 1), v. pose proof (rd_Some_range _ _ _ A). unfold rd in *.
      replace (0 <=? k + 1) with true by lia. replace (0 <=? k) with true in A, B by lia. replace (Z.to_nat (k + 1)) with (S (Z.to_nat k)) by lia. split; assumption.
  - intros (k & v & A & B). destruct (mc_ne a b) eqn:E; [|reflexivity]. apply (mc_ne_ok a b L) in E. exfalso. unfold rd in *. destruct (0 <=? k); [|discriminate].
    revert A B. generalize (Z.to_nat k). induction E; intros [|m] A B; cbn in A, B; try discriminate; [congruence|apply (IHE ltac:(cbn in L; congruence) m A B)].
Qed.
Lemma color_equ_ok n im1 im2 : wf_cimg n im1 -> wf_cimg n im2 -> csz im1 = csz im2 -> pixelCount (csz im1) < 2 ^ 32 -> (0 < n)%nat ->
  exists b, color_equ im1 im2 = Some b /\ (im1 = im2 -> b = true) /\
    (b = true <-> forall x y z, inside (csz im1) x y z -> exists k v, chan_is im1 k x y z v /\ chan_is im2 k x y z v).
Proof.
  intros W1 W2 Es L Hn. unfold color_equ. pose proof W1 as (L1 & Wd & _). pose proof W2 as (L2 & _).
  rewrite (all_some_map _ (fun i => mc_ne (colour_at (chans im1) i) (colour_at (chans im2) i))).
  2: { intros i Hi. apply zseq_In in Hi. rewrite (colour_read n im1), (colour_read n im2) by (try assumption; try (rewrite <- Es; assumption); lia). reflexivity. }
  cbn [option_map]. eexists. split; [reflexivity|]. rewrite forallb_forall. 
  assert (Q : (forall b, In b (map (fun i => mc_ne (colour_at (chans im1) i) (colour_at (chans im2) i)) (zseq (pixelCount (csz im1)))) -> negb b = true) <->
    forall x y z, inside (csz im1) x y z -> exists k v, chan_is im1 k x y z v /\ chan_is im2 k x y z v).
  { split.
    - intros H x y z Hin. pose proof (inside_range _ _ _ _ Hin) as R.
      specialize (H (mc_ne (colour_at (chans im1) (voxel_offset (dw (csz im1)) (dh (csz im1)) x y z)) (colour_at (chans im2) (voxel_offset (dw (csz im1)) (dh (csz im1)) x y z)))).
      apply negb_true_iff in H; [|apply in_map_iff; eexists; split; [reflexivity|]; apply zseq_In; rewrite pixelCount_dims; exact R].
      apply mc_ne_false in H; [|rewrite !colour_length; congruence]. destruct H as (k & v & A & B). exists k, v. split; [apply (chan_colour n); assumption|]. apply (chan_colour n); [assumption|rewrite <- Es; exact Hin|]. rewrite <- Es. exact B.
    - intros H b Hb. apply in_map_iff in Hb as (i & <- & Hi). apply zseq_In in Hi. rewrite pixelCount_dims in Hi. destruct (voxel_surj _ _ Wd Hi) as (x & y & z & Hin & ->).
      apply negb_true_iff. apply mc_ne_false; [rewrite !colour_length; congruence|]. destruct (H x y z Hin) as (k & v & A & B). exists k, v. split; [apply (chan_colour n); assumption|]. rewrite Es. apply (chan_colour n) in B; [exact B|assumption|rewrite <- Es; exact Hin]. }
  rewrite <- Q. rewrite <- forallb_forall. split; [|reflexivity]. intros E. subst im2. apply forallb_forall. apply Q. intros x y z Hin.
  destruct (rd_in_range (chans im1) 0 ltac:(lia)) as (c & Ec). exists 0, (znth 0 c (voxel_offset (dw (csz im1)) (dh (csz im1)) x y z)).
  assert (chan_is im1 0 x y z (znth 0 c (voxel_offset (dw (csz im1)) (dh (csz im1)) x y z))); [|split; assumption]. apply (chan_colour n); [assumption|assumption|]. rewrite colour_rd, Ec. reflexivity.
Qed.

Lemma rgb_equal_ok im1 im2 px out : wf_cimg 3 im1 -> wf_cimg 3 im2 -> wf_cimg 3 (CImg (csz im1) px) -> csz im1 = csz im2 ->
  rgb_equ (chans im1) (chans im2) (pixelCount (csz im1)) px = Some out -> (rgb_bool (CImg (csz im1) out) = true <-> im1 = im2).
Proof.
  intros W1 W2 Wp Es E.
  assert (RH : forall s cs, wf_cimg 3 (CImg s cs) -> rgb_has (pixelCount s) cs).
  { intros s cs (Ln & _ & Wc). split; [exact Ln|]. intros c Hc. destruct (wf_count _ _ (Wc c Hc)) as (Lc & _). cbn [csz] in Lc. lia. }
  destruct (rgb_line_ok (fun a b => if a =? b then 255 else 0) (chans im1) (chans im2) (pixelCount (csz im1)) px) as (o & E' & L & V & _).
  { apply RH. destruct im1; exact W1. } { rewrite Es. apply RH. destruct im2; exact W2. } { apply RH, Wp. }
  unfold rgb_equ in E. rewrite E in E'. injection E' as <-.
  pose proof W1 as (L1 & Wd & _). pose proof W2 as (L2 & _). pose proof Wp as (Lp & _ & Wc). cbn [chans csz] in Lp, Wc.
  assert (Wo : wf_cimg 3 (CImg (csz im1) out)).
  { assert (Lo : length out = 3%nat) by (rewrite <- (map_length (@length Z) out), L, map_length; exact Lp).
    split; [exact Lo|]. split; [exact Wd|]. cbn [chans csz]. intros c Hc. apply In_rd in Hc as (k & Hk & Ek). split; [exact Wd|]. cbn [pixs sz].
    assert (M : rd (map (@length Z) out) k = rd (map (@length Z) px) k) by (rewrite L; reflexivity). rewrite !rd_map, Ek in M. destruct (rd px k) as [d|] eqn:Ed; [|discriminate]. injection M as ->. apply (Wc d (rd_In _ _ _ Ed)). }
  assert (Q : forall k x y z, inside (csz im1) x y z -> forall u, chan_is (CImg (csz im1) out) k x y z u -> exists a b, chan_is im1 k x y z a /\ chan_is im2 k x y z b /\ u = if a =? b then 255 else 0).
  { intros k x y z Hin u Hu. apply (chan_colour 3) in Hu; [|exact Wo|exact Hin]. cbn [chans csz] in Hu. rewrite V in Hu by (rewrite pixelCount_dims; apply inside_range; exact Hin). rewrite rd_map2 in Hu.
    destruct (rd (colour_at (chans im1) _) k) as [a|] eqn:A; [|discriminate]. destruct (rd (colour_at (chans im2) _) k) as [b|] eqn:B; [|discriminate]. injection Hu as <-. exists a, b.
    split; [apply (chan_colour 3); assumption|]. split; [apply (chan_colour 3); [assumption|rewrite <- Es; assumption|rewrite <- Es; assumption]|reflexivity]. }
  assert (F : forall im k x y z a b, chan_is im k x y z a -> chan_is im k x y z b -> a = b).
  { intros im k x y z a b (c & Hc & _ & A) (d & Hd & _ & B). congruence. }
  assert (I : forall im k x y z v, chan_is im k x y z v -> inside (csz im) x y z).
  { intros im k x y z v (c & Hc & Hin & _). unfold channel in Hc. destruct (rd (chans im) k); [|discriminate]. injection Hc as <-. exact Hin. }
  rewrite rgb_bool_ok; [|exact Wo|].
  - split.
    + intros H. apply (cimg_ext 3); [exact W1|exact W2|exact Es|]. intros k x y z v Hv. pose proof (I _ _ _ _ _ _ Hv) as Hin.
      assert (Hk : exists u, chan_is (CImg (csz im1) out) k x y z u).
      { assert (R : 0 <= k < 3). { destruct Hv as (c & Hc & _). unfold channel in Hc. destruct (rd (chans im1) k) eqn:Ek; [|discriminate]. apply rd_Some_range in Ek. rewrite L1 in Ek. exact Ek. }
        destruct Wo as (Lo & Wo'). cbn [chans csz] in Lo. destruct (rd_in_range out k ltac:(lia)) as (c & Ec). eexists. apply (chan_colour 3); [split; [exact Lo|exact Wo']|exact Hin|]. rewrite colour_rd. cbn [chans]. rewrite Ec. reflexivity. }
      destruct Hk as (u & Hu). destruct (Q k x y z Hin u Hu) as (a & b & A & B & Eu). rewrite (H _ _ _ _ _ Hu) in Eu. destruct (Z.eqb_spec a b) as [<-|]; [|discriminate]. rewrite (F _ _ _ _ _ _ _ Hv A). exact B.
    + intros Eq k x y z v Hv. pose proof (I _ _ _ _ _ _ Hv) as Hin. destruct (Q k x y z Hin v Hv) as (a & b & A & B & ->). rewrite <- Eq in B. rewrite (F _ _ _ _ _ _ _ A B), Z.eqb_refl. reflexivity.
  - intros c Hc. cbn [chans] in Hc. apply In_rd in Hc as (k & Hk & Ek). apply Forall_forall. intros v Hv. apply In_rd in Hv as (i & Hi & Hv). destruct Wo as (Lo & Wd' & Wo'). cbn [chans csz] in *.
    destruct (Wo' c (rd_In _ _ _ Ek)) as (_ & Lc). cbn [pixs sz] in Lc. rewrite Lc in Hi. destruct (voxel_surj _ _ Wd Hi) as (x & y & z & Hin & ->).
    destruct (Q k x y z Hin v) as (a & b & _ & _ & ->); [exists (Img (csz im1) c); unfold channel; cbn [chans csz]; rewrite Ek; split; [reflexivity|split; [exact Hin|exact Hv]]|].
    destruct (a =? b); split; cbv; discriminate.
Qed.
