(** Lemmas about the bounding box, histograms, blobs and lookup tables. *)
From Verif Require Export Proofs.MeasureProofs.

(** * Bounding box *)
Definition bbk (im3d : bool) (s : dims) (b : bbst) (k : Z) : bbst :=
  BB (Z.min (kx s k) (xMin b)) (Z.max (kx s k) (xMax b)) (Z.min (ky s k) (yMin b)) (Z.max (ky s k) (yMax b))
     (if im3d then Z.min (kz s k) (zMin b) else zMin b) (if im3d then Z.max (kz s k) (zMax b) else zMax b).

Lemma bb_step_fold im3d s y z : wf_dims s -> 0 <= y < dh s -> 0 <= z < dd s -> forall n, 0 < n ->
  forall b l a, 0 <= a -> a + n <= dw s -> Z.of_nat (length l) = n ->
  bb_step im3d b l a y z = fold_left (bbk im3d s) (zrange (voxel_offset (dw s) (dh s) a y z) n) b.
Proof.
  intros Hw Hy Hz n Hn.
  assert (K : forall k a, 0 <= k -> 0 <= a -> a + (k + 1) <= dw s -> forall b l, Z.of_nat (length l) = k + 1 ->
    bb_step im3d b l a y z = fold_left (bbk im3d s) (zrange (voxel_offset (dw s) (dh s) a y z) (k + 1)) b).
  { intros k a Hk Ha.
    refine (natlike_rect' (fun k => a + (k + 1) <= dw s -> forall b l, Z.of_nat (length l) = k + 1 ->
      bb_step im3d b l a y z = fold_left (bbk im3d s) (zrange (voxel_offset (dw s) (dh s) a y z) (k + 1)) b) k _ _ Hk).
    - intros Hle b l HL. rewrite zrange_cons, zrange_nil by lia. cbn [fold_left].
      destruct (k_coords s a y z) as (E1 & E2 & E3); [unfold inside; lia|]. unfold bbk, bb_step. rewrite E1, E2, E3, HL.
      f_equal; try (destruct im3d; [|reflexivity]); try lia; match goal with |- (if ?c then _ else _) = _ => destruct c eqn:?; lia end.
    - clear k Hk. intros k Hk IH Hle b l HL. rewrite zrange_snoc, fold_left_app by lia. cbn [fold_left].
      assert (HL' : exists l1 v, l = l1 ++ [v]).
      { destruct l as [|v0 l0]; [cbn in HL; lia|]. destruct (exists_last (l := v0 :: l0)) as (l1 & v & E); [discriminate|]. eauto. }
      destruct HL' as (l1 & v & ->). rewrite app_length in HL. cbn [length] in HL.
      rewrite <- (IH ltac:(lia) b l1) by lia.
      replace (voxel_offset (dw s) (dh s) a y z + (k + 1)) with (voxel_offset (dw s) (dh s) (a + (k + 1)) y z)
        by (unfold voxel_offset; lia).
      destruct (k_coords s (a + (k + 1)) y z) as (E1 & E2 & E3); [unfold inside; lia|].
      unfold bbk, bb_step. rewrite E1, E2, E3, app_length. cbn [length xMin xMax yMin yMax zMin zMax].
      f_equal; try (destruct im3d; [|reflexivity]); try lia;
        repeat match goal with |- context [if ?c then _ else _] => destruct c eqn:? end; lia. }
  intros b l a Ha Han HL. replace n with (n - 1 + 1) by lia. apply K; lia.
Qed.

Definition is_box (s : dims) (ks : list Z) (b : bbst) (im3d : bool) : Prop :=
  (forall k, In k ks -> xMin b <= kx s k <= xMax b /\ yMin b <= ky s k <= yMax b /\
                        (im3d = true -> zMin b <= kz s k <= zMax b)) /\
  (exists k, In k ks /\ kx s k = xMin b) /\ (exists k, In k ks /\ kx s k = xMax b) /\
  (exists k, In k ks /\ ky s k = yMin b) /\ (exists k, In k ks /\ ky s k = yMax b) /\
  (im3d = true -> (exists k, In k ks /\ kz s k = zMin b) /\ (exists k, In k ks /\ kz s k = zMax b)).

Lemma bb_fold im3d s ks : (forall k, In k ks -> 0 <= kx s k < dw s /\ 0 <= ky s k < dh s /\ 0 <= kz s k < dd s) ->
  let b := fold_left (bbk im3d s) ks (BB (dw s) 0 (dh s) 0 (dd s) 0) in
  (ks = [] /\ b = BB (dw s) 0 (dh s) 0 (dd s) 0) \/ is_box s ks b im3d.
Proof.
  intros HR.
  apply (fold_left_inv (fun done b => (done = [] /\ b = BB (dw s) 0 (dh s) 0 (dd s) 0) \/ is_box s done b im3d)).
  { left. split; reflexivity. }
  intros done a todo b E H. right.
  assert (Ha := HR a). rewrite E in Ha. specialize (Ha (in_elt a done todo)).
  destruct H as [(-> & ->)|H].
  - unfold is_box, bbk. cbn [xMin xMax yMin yMax zMin zMax app].
    split; [intros k [<-|[]]; destruct im3d; lia|].
    repeat split; try (exists a; split; [left; reflexivity|]; lia).
    all: subst im3d; exists a; split; [left; reflexivity|]; lia.
  - destruct H as (H0 & H1 & H2 & H3 & H4 & H5).
    assert (A : forall f m (g : Z -> Z -> Z), (forall u v, g u v = u \/ g u v = v) -> (exists k, In k done /\ f k = m) ->
      exists k, In k (done ++ [a]) /\ f k = g (f a) m).
    { intros f m g G (k & K1 & K2). destruct (G (f a) m) as [Eg|Eg]; rewrite Eg.
      - exists a. split; [apply in_or_app; right; left; reflexivity|reflexivity].
      - exists k. split; [apply in_or_app; left; assumption|assumption]. }
    unfold is_box, bbk. cbn [xMin xMax yMin yMax zMin zMax]. split.
    + intros k Hk. apply in_app_or in Hk as [Hk|[<-|[]]]; [|destruct im3d; lia].
      specialize (H0 k Hk). destruct im3d; [destruct H0 as (X & Y & Z0); specialize (Z0 eq_refl)|]; lia.
    + repeat split; try (apply A; [intros; lia|assumption]).
      all: subst im3d; destruct H5 as [H5 H6]; [reflexivity|]; apply A; [intros; lia|assumption].
Qed.

Lemma nonzero_at_sel im x y z : wf_img im -> nonzero_at im x y z <->
  inside (sz im) x y z /\ In (voxel_offset (dw (sz im)) (dh (sz im)) x y z) (sel true im).
Proof.
  intros [Hw HL]. unfold nonzero_at, pixel_is, sel. rewrite filter_In, zseq_In. split.
  - intros (v & V & I & R). split; [exact I|]. split; [apply rd_Some_range in R; exact R|].
    rewrite (znth_rd 0 _ _ _ R). unfold nzb. lia.
  - intros (I & R & V). exists (znth 0 (pixs im) (voxel_offset (dw (sz im)) (dh (sz im)) x y z)).
    unfold nzb in V. split; [lia|]. split; [exact I|]. apply rd_znth. exact R.
Qed.

Lemma sel_coords im k : wf_img im -> In k (sel true im) ->
  nonzero_at im (kx (sz im) k) (ky (sz im) k) (kz (sz im) k).
Proof.
  intros Hwf Hk. apply nonzero_at_sel; [exact Hwf|]. destruct Hwf as [Hw HL].
  assert (R : 0 <= k < dw (sz im) * dh (sz im) * dd (sz im)).
  { unfold sel in Hk. apply filter_In in Hk as [Hk _]. apply zseq_In in Hk. lia. }
  destruct (k_voxel (sz im) k Hw R) as [I E]. split; [exact I|]. rewrite E. exact Hk.
Qed.

Lemma coords_sel im x y z : wf_img im -> nonzero_at im x y z ->
  exists k, In k (sel true im) /\ kx (sz im) k = x /\ ky (sz im) k = y /\ kz (sz im) k = z.
Proof.
  intros Hwf H. apply nonzero_at_sel in H as [I H]; [|exact Hwf].
  exists (voxel_offset (dw (sz im)) (dh (sz im)) x y z). split; [exact H|]. apply k_coords. exact I.
Qed.

Lemma measBoundBox_eq im : wf_img im -> 0 < dw (sz im) ->
  let im3d := dd (sz im) >? 1 in
  let s := fold_left (bbk im3d (sz im)) (sel true im) (BB (dw (sz im)) 0 (dh (sz im)) 0 (dd (sz im)) 0) in
  measBoundBox im = Some (map (fun v => v mod 2 ^ 32)
        ([xMin s; yMin s] ++ (if im3d then [zMin s] else []) ++ [xMax s; yMax s] ++ (if im3d then [zMax s] else []))).
Proof.
  intros Hwf Hw0. cbn zeta. unfold measBoundBox, width, height, depth.
  rewrite (process_image_pos_step _ (fun b k => Some (bbk (dd (sz im) >? 1) (sz im) b k))); [|exact Hwf| |exact Hw0].
  - rewrite (fold_opt_total _ (bbk (dd (sz im) >? 1) (sz im))) by reflexivity. reflexivity.
  - intros s a n y z Hy Hz Ha Hn Han Hb. rewrite (fold_opt_total _ (bbk (dd (sz im) >? 1) (sz im))) by reflexivity. f_equal.
    apply bb_step_fold; auto; [apply Hwf|]. rewrite map_length, zrange_length. lia.
Qed.

Lemma measBoundBox_ok im : wf_img im ->
  dw (sz im) < 2 ^ 32 -> dh (sz im) < 2 ^ 32 -> dd (sz im) < 2 ^ 32 ->
  (exists x y z, nonzero_at im x y z) ->
  exists x0 y0 z0 x1 y1 z1,
    measBoundBox im = Some (if dd (sz im) >? 1 then [x0; y0; z0; x1; y1; z1] else [x0; y0; x1; y1]) /\
    (forall x y z, nonzero_at im x y z -> x0 <= x <= x1 /\ y0 <= y <= y1 /\ (1 < dd (sz im) -> z0 <= z <= z1)) /\
    (exists y z, nonzero_at im x0 y z) /\ (exists y z, nonzero_at im x1 y z) /\
    (exists x z, nonzero_at im x y0 z) /\ (exists x z, nonzero_at im x y1 z) /\
    (1 < dd (sz im) -> (exists x y, nonzero_at im x y z0) /\ (exists x y, nonzero_at im x y z1)).
Proof.
  intros Hwf L1 L2 L3 (x & y & z & Hnz).
  assert (Hw0 : 0 < dw (sz im)) by (destruct Hnz as (v & _ & (I & _) & _); lia).
  assert (HI : forall x y z, nonzero_at im x y z -> inside (sz im) x y z) by (intros ? ? ? (v & _ & I & _); exact I).
  rewrite measBoundBox_eq by assumption.
  destruct (bb_fold (dd (sz im) >? 1) (sz im) (sel true im)) as [(E & _)|B].
  { intros k Hk. apply (HI _ _ _ (sel_coords im k Hwf Hk)). }
  { destruct (coords_sel im x y z Hwf Hnz) as (k & Hk & _). rewrite E in Hk. destruct Hk. }
  set (b := fold_left _ _ _) in *. clearbody b. destruct B as (B0 & B1 & B2 & B3 & B4 & B5).
  assert (C : forall (f : dims -> Z -> Z) m, (exists k, In k (sel true im) /\ f (sz im) k = m) ->
     exists k, nonzero_at im (kx (sz im) k) (ky (sz im) k) (kz (sz im) k) /\ f (sz im) k = m).
  { intros f m (k & K1 & K2). exists k. split; [apply sel_coords; assumption|exact K2]. }
  apply (C kx) in B1. apply (C kx) in B2. apply (C ky) in B3. apply (C ky) in B4.
  exists (xMin b), (yMin b), (zMin b), (xMax b), (yMax b), (zMax b).
  assert (M : forall v, 0 <= v < 2 ^ 32 -> v mod 2 ^ 32 = v) by (intros; apply Z.mod_small; lia).
  assert (R1 : 0 <= xMin b < dw (sz im)) by (destruct B1 as (k & K1 & <-); apply (HI _ _ _ K1)).
  assert (R2 : 0 <= xMax b < dw (sz im)) by (destruct B2 as (k & K1 & <-); apply (HI _ _ _ K1)).
  assert (R3 : 0 <= yMin b < dh (sz im)) by (destruct B3 as (k & K1 & <-); apply (HI _ _ _ K1)).
  assert (R4 : 0 <= yMax b < dh (sz im)) by (destruct B4 as (k & K1 & <-); apply (HI _ _ _ K1)).
  split; [|split; [|split; [|split; [|split; [|split]]]]].
  - destruct (Z.gtb_spec (dd (sz im)) 1); cbn [app map]; [|rewrite !M by lia; reflexivity].
    destruct (B5 eq_refl) as [B6 B7]. apply (C kz) in B6. apply (C kz) in B7.
    assert (R5 : 0 <= zMin b < dd (sz im)) by (destruct B6 as (k & K1 & <-); apply (HI _ _ _ K1)).
    assert (R6 : 0 <= zMax b < dd (sz im)) by (destruct B7 as (k & K1 & <-); apply (HI _ _ _ K1)).
    rewrite !M by lia. reflexivity.
  - intros x' y' z' H. destruct (coords_sel im x' y' z' Hwf H) as (k & Hk & <- & <- & <-).
    destruct (B0 k Hk) as (X & Y & Z0). split; [exact X|]. split; [exact Y|]. intros Hd. apply Z0. lia.
  - destruct B1 as (k & K1 & <-). eauto.
  - destruct B2 as (k & K1 & <-). eauto.
  - destruct B3 as (k & K1 & <-). eauto.
  - destruct B4 as (k & K1 & <-). eauto.
  - intros Hd. destruct B5 as [B6 B7]; [lia|]. apply (C kz) in B6. apply (C kz) in B7.
    destruct B6 as (k & K1 & <-), B7 as (k' & K1' & <-). split; eauto.
Qed.

(** * Counting loops *)
Definition cstep (cell : Z -> option Z) (h : list Z) (i : Z) : option (list Z) :=
  match cell i with None => Some h | Some k => option_bind (rd h k) (fun c => wr h k (c + 1)) end.

Definition hits (cell : Z -> option Z) (k i : Z) : bool :=
  match cell i with Some j => j =? k | None => false end.
Definition hit (cell : Z -> option Z) (i : Z) : bool := match cell i with Some _ => true | None => false end.

Lemma Zsum_upd_nat l n v c : nth_error l n = Some c -> Zsum (upd_nat l n v) = Zsum l + v - c.
Proof.
  revert n; induction l as [|a l IH]; intros [|n] H; cbn in H; try discriminate; cbn [upd_nat]; rewrite !Zsum_cons.
  - injection H as ->. lia.
  - rewrite (IH n H). lia.
Qed.

Lemma Zsum_wr l i v c l' : wr l i v = Some l' -> rd l i = Some c -> Zsum l' = Zsum l + v - c.
Proof.
  unfold wr, rd. destruct (_ && _) eqn:E; [|discriminate]. intros [= <-]. replace (0 <=? i) with true by lia.
  apply Zsum_upd_nat.
Qed.

Lemma count_loop cell is h :
  (forall i k, In i is -> cell i = Some k -> 0 <= k < Z.of_nat (length h)) ->
  exists h', fold_opt (cstep cell) is h = Some h' /\ length h' = length h /\
    (forall k, znth 0 h' k = znth 0 h k + (if (0 <=? k) && (k <? Z.of_nat (length h)) then Z.of_nat (length (filter (hits cell k) is)) else 0)) /\
    Zsum h' = Zsum h + Z.of_nat (length (filter (hit cell) is)).
Proof.
  intros HR.
  apply (fold_opt_inv (fun done h' => length h' = length h /\
    (forall k, znth 0 h' k = znth 0 h k + (if (0 <=? k) && (k <? Z.of_nat (length h)) then Z.of_nat (length (filter (hits cell k) done)) else 0)) /\
    Zsum h' = Zsum h + Z.of_nat (length (filter (hit cell) done)))).
  - split; [reflexivity|]. split; [intros k; cbn; destruct (_ && _); lia|cbn; lia].
  - intros done a todo b E (H1 & H2 & H3). unfold cstep.
    destruct (cell a) as [k|] eqn:Ec.
    + assert (Hk : 0 <= k < Z.of_nat (length h)) by (apply (HR a); [rewrite E; apply in_elt|exact Ec]).
      rewrite (rd_znth 0) by (rewrite H1; exact Hk). cbn [option_bind].
      destruct (wr_Some b k (znth 0 b k + 1)) as [b' Eb]; [rewrite H1; exact Hk|]. exists b'. split; [exact Eb|].
      split; [rewrite (wr_length _ _ _ _ Eb); exact H1|]. split.
      * intros j. unfold znth at 1. rewrite (rd_wr _ _ _ _ j Eb). rewrite filter_app, app_length. cbn [filter].
        unfold hits at 2. rewrite Ec. destruct (Z.eqb_spec k j) as [->|N]; cbn [length].
        -- rewrite H2. replace (_ && _) with true by lia. lia.
        -- change (match rd b j with Some v => v | None => 0 end) with (znth 0 b j). rewrite H2. destruct (_ && _); lia.
      * rewrite (Zsum_wr _ _ _ (znth 0 b k) _ Eb) by (apply rd_znth; rewrite H1; exact Hk).
        rewrite filter_app, app_length. cbn [filter]. unfold hit at 2. rewrite Ec. cbn [length]. lia.
    + exists b. split; [reflexivity|]. split; [exact H1|]. split.
      * intros j. rewrite filter_app, app_length. cbn [filter]. unfold hits at 2. rewrite Ec. cbn [length]. rewrite H2.
        destruct (_ && _); lia.
      * rewrite filter_app, app_length. cbn [filter]. unfold hit at 2. rewrite Ec. cbn [length]. lia.
Qed.

Lemma znth_repeat0 n k : znth 0 (repeat 0 n) k = 0.
Proof.
  destruct (Z_lt_ge_dec k (Z.of_nat n)), (Z_le_gt_dec 0 k).
  1: apply znth_rd, rd_repeat; lia.
  all: unfold znth; rewrite rd_out; [reflexivity|]; rewrite repeat_length; lia.
Qed.

Lemma Zsum_repeat0 n : Zsum (repeat 0 n) = 0.
Proof. induction n; cbn [repeat]; [reflexivity|]. rewrite Zsum_cons. lia. Qed.

Lemma count_positions (l : list Z) v :
  length (filter (fun i => znth 0 l i =? v) (zseq (Z.of_nat (length l)))) = count_occ Z.eq_dec l v.
Proof.
  rewrite <- (map_length (znth 0 l)), <- (filter_map_comm (fun a => a =? v)), map_znth_zseq.
  induction l as [|a l IH]; [reflexivity|]. cbn. destruct (Z.eq_dec a v), (Z.eqb_spec a v); try lia; cbn; rewrite IH; reflexivity.
Qed.

Lemma count_occ_filter (l : list Z) v : count_occ Z.eq_dec l v = length (filter (fun a => a =? v) l).
Proof.
  induction l as [|a l IH]; [reflexivity|]. cbn. destruct (Z.eq_dec a v), (Z.eqb_spec a v); try lia; cbn; rewrite IH; reflexivity.
Qed.

Lemma combine_znth (l1 l2 : list Z) : length l1 = length l2 ->
  combine l1 l2 = map (fun i => (znth 0 l1 i, znth 0 l2 i)) (zseq (Z.of_nat (length l1))).
Proof.
  intros HL. apply list_ext_rd.
  - rewrite combine_length, map_length, zseq_length. lia.
  - intros i Hi. rewrite combine_length in Hi. rewrite rd_map, rd_zseq by lia. cbn [option_map].
    revert l2 i HL Hi. induction l1 as [|a l1 IH]; intros [|b l2] i HL Hi; cbn in HL; try lia; [cbn in Hi; lia|].
    destruct (Z.eq_dec i 0) as [->|N]; [reflexivity|].
    assert (C : forall A (x : A) l, 0 < i -> rd (x :: l) i = rd l (i - 1)).
    { intros A x l Hi0. unfold rd. replace (0 <=? i) with true by lia. replace (0 <=? i - 1) with true by lia.
      replace (Z.to_nat i) with (S (Z.to_nat (i - 1))) by lia. reflexivity. }
    cbn [combine]. unfold znth. rewrite !C by lia. apply IH; [lia|]. cbn [length] in Hi. lia.
Qed.

Definition mask_at (mask : option img) (i : Z) : bool :=
  match mask with None => true | Some m => negb (znth 0 (pixs m) i =? 0) end.

Lemma counted_count im mask v : (forall m, mask = Some m -> length (pixs m) = length (pixs im)) ->
  count_occ Z.eq_dec (counted im mask) v =
  length (filter (fun i => mask_at mask i && (znth 0 (pixs im) i =? v)) (zseq (Z.of_nat (length (pixs im))))).
Proof.
  intros HM. destruct mask as [m|]; cbn [counted mask_at].
  - rewrite combine_znth by (symmetry; apply HM; reflexivity).
    rewrite count_occ_filter, !filter_map_comm. cbn [snd fst]. rewrite !map_length. f_equal.
    induction (zseq _) as [|a l IH]; [reflexivity|]. cbn [filter].
    destruct (znth 0 (pixs m) a =? 0); cbn [negb andb filter]; [exact IH|].
    destruct (znth 0 (pixs im) a =? v); rewrite IH; reflexivity.
  - cbn [andb]. symmetry. apply count_positions.
Qed.

Lemma counted_length im mask : (forall m, mask = Some m -> length (pixs m) = length (pixs im)) ->
  length (counted im mask) = length (filter (mask_at mask) (zseq (Z.of_nat (length (pixs im))))).
Proof.
  intros HM. destruct mask as [m|]; cbn [counted].
  - rewrite combine_znth by (symmetry; apply HM; reflexivity). rewrite filter_map_comm, map_map, map_length. reflexivity.
  - rewrite filter_all by reflexivity. rewrite zseq_length. lia.
Qed.

Lemma tcard_32 t : t <> UINT32 -> 0 < tcard t /\ tcard t = tmax t - tmin t + 1.
Proof. destruct t; intros; try congruence; cbn; lia. Qed.

(** One histogram loop: cell of pixel [i] is its value minus [lo], masked pixels are skipped. *)
Lemma hist_loop im mask lo card :
  (forall m, mask = Some m -> length (pixs m) = length (pixs im)) -> 0 <= card ->
  (forall v, In v (pixs im) -> lo <= v < lo + card) ->
  exists h, fold_opt (fun buf i =>
        option_bind (match mask with None => Some 1 | Some m => rd (pixs m) i end) (fun mv =>
        if mv =? 0 then Some buf else
        option_bind (rd (pixs im) i) (fun v =>
        option_bind (rd buf (v - lo)) (fun c => wr buf (v - lo) (c + 1)))))
      (zseq (Z.of_nat (length (pixs im)))) (repeat 0 (Z.to_nat card)) = Some h /\
    Z.of_nat (length h) = card /\
    (forall v, lo <= v < lo + card -> rd h (v - lo) = Some (Z.of_nat (count_occ Z.eq_dec (counted im mask) v))) /\
    Zsum h = Z.of_nat (length (counted im mask)).
Proof.
  intros HM HC HV.
  set (cell := fun i => if mask_at mask i then Some (znth 0 (pixs im) i - lo) else None).
  rewrite (fold_opt_ext _ (cstep cell)).
  2: { intros b a Ha. apply zseq_In in Ha. unfold cstep, cell, mask_at.
       destruct mask as [m|].
       - rewrite (rd_znth 0 (pixs m)) by (rewrite (HM m eq_refl); lia). cbn [option_bind].
         destruct (_ =? 0); cbn [negb]; [reflexivity|]. rewrite (rd_znth 0 (pixs im)) by lia. reflexivity.
       - cbn [option_bind Z.eqb]. rewrite (rd_znth 0 (pixs im)) by lia. reflexivity. }
  destruct (count_loop cell (zseq (Z.of_nat (length (pixs im)))) (repeat 0 (Z.to_nat card))) as (h & E & HL & HK & HS).
  { intros i k Hi. unfold cell. destruct (mask_at mask i); [|discriminate]. intros [= <-]. apply zseq_In in Hi.
    specialize (HV (znth 0 (pixs im) i)). rewrite repeat_length.
    assert (In (znth 0 (pixs im) i) (pixs im)) as Hin by (eapply rd_In; apply rd_znth; exact Hi). specialize (HV Hin). lia. }
  rewrite repeat_length in HL, HK. exists h. split; [exact E|]. split; [lia|]. split.
  - intros v Hv. rewrite (rd_znth 0) by lia. f_equal. rewrite HK, znth_repeat0.
    replace (_ && _) with true by lia. cbn [Z.add]. f_equal. rewrite counted_count by exact HM. f_equal. apply filter_ext.
    intros i. unfold hits, cell. destruct (mask_at mask i); cbn [andb]; lia.
  - rewrite HS, Zsum_repeat0, counted_length by exact HM. cbn [Z.add]. do 2 f_equal. apply filter_ext.
    intros i. unfold hit, cell. destruct (mask_at mask i); reflexivity.
Qed.

Lemma histogram_array_ok t im : t <> UINT32 -> wf_img im -> typed_img t im ->
  exists h, histogram_array t im = Some h /\ Z.of_nat (length h) = tcard t /\
    (forall v, inty t v -> rd h (v - tmin t) = Some (Z.of_nat (count_occ Z.eq_dec (pixs im) v))) /\
    Zsum h = Z.of_nat (length (pixs im)).
Proof.
  intros Ht Hwf HT. unfold histogram_array. rewrite wf_count by exact Hwf. destruct (tcard_32 t Ht) as [C1 C2].
  unfold typed_img in HT. rewrite Forall_forall in HT.
  destruct (hist_loop im None (tmin t) (tcard t)) as (h & E & H1 & H2 & H3); try lia; [discriminate| |].
  { intros v Hv. specialize (HT v Hv). unfold inty in HT. lia. }
  exists h. split; [exact E|]. split; [exact H1|]. split; [|exact H3].
  intros v Hv. apply H2. unfold inty in Hv. lia.
Qed.

Lemma histogram_array_mask_ok t im mask : t <> UINT32 -> wf_img im -> typed_img t im -> length (pixs mask) = length (pixs im) ->
  exists h, histogram_array_mask t im mask = Some h /\ Z.of_nat (length h) = tcard t /\
    (forall v, inty t v -> rd h (v - tmin t) = Some (Z.of_nat (count_occ Z.eq_dec (counted im (Some mask)) v))) /\
    Zsum h = Z.of_nat (length (counted im (Some mask))).
Proof.
  intros Ht Hwf HT HM. unfold histogram_array_mask. rewrite wf_count by exact Hwf. destruct (tcard_32 t Ht) as [C1 C2].
  unfold typed_img in HT. rewrite Forall_forall in HT.
  destruct (hist_loop im (Some mask) (tmin t) (tcard t)) as (h & E & H1 & H2 & H3); try lia; [congruence| |].
  { intros v Hv. specialize (HT v Hv). unfold inty in HT. lia. }
  exists h. split; [exact E|]. split; [exact H1|]. split; [|exact H3].
  intros v Hv. apply H2. unfold inty in Hv. lia.
Qed.

Lemma minsert_all (g : Z -> Z) l : forall h0, msorted h0 ->
  let h := fold_left (fun h i => minsert i (g i) h) l h0 in
  msorted h /\ forall v, mfind v h = match mfind v h0 with Some c => Some c | None => if in_dec Z.eq_dec v l then Some (g v) else None end.
Proof.
  induction l as [|a l IH]; intros h0 HS; cbn zeta; cbn [fold_left].
  - split; [exact HS|]. intros v. destruct (in_dec Z.eq_dec v []); [contradiction|]. destruct (mfind v h0); reflexivity.
  - destruct (IH (minsert a (g a) h0)) as [I1 I2]; [apply msorted_minsert; exact HS|]. split; [exact I1|].
    intros v. rewrite I2, mfind_minsert by exact HS. destruct (mfind v h0) eqn:E; [reflexivity|].
    destruct (Z.eqb_spec v a) as [->|N].
    + destruct (in_dec Z.eq_dec a (a :: l)) as [|C]; [reflexivity|exfalso; apply C; left; reflexivity].
    + destruct (in_dec Z.eq_dec v l) as [I|I], (in_dec Z.eq_dec v (a :: l)) as [J|J]; try reflexivity; exfalso.
      * apply J; right; exact I.
      * destruct J as [J|J]; [congruence|contradiction].
Qed.

Lemma fill_above_ok t : forall fuel i h, tmin t < i <= tmax t + 1 -> Z.of_nat fuel > tmax t + 1 - i ->
  fill_above t fuel (if i <=? tmax t then i else tmin t) h =
  Some (fold_left (fun h j => minsert j 0 h) (zrange i (tmax t + 1 - i)) h).
Proof.
  induction fuel as [|n IH]; intros i h Hi Hf; [lia|].
  destruct (Z.leb_spec i (tmax t)) as [L|L]; cbn [fill_above].
  - replace ((i <=? tmax t) && negb (i =? tmin t)) with true by lia. rewrite zrange_cons by lia. cbn [fold_left].
    replace (tmax t + 1 - i - 1) with (tmax t + 1 - (i + 1)) by lia. rewrite <- (IH (i + 1)) by lia. f_equal.
    destruct (Z.leb_spec (i + 1) (tmax t)).
    + apply wrap_id. unfold inty. lia.
    + replace (i + 1) with (tmax t + 1) by lia. destruct t; reflexivity.
  - replace ((tmin t <=? tmax t) && negb (tmin t =? tmin t)) with false by lia.
    rewrite zrange_nil by lia. reflexivity.
Qed.

Lemma fill_above_min t n h : fill_above t (S n) (tmin t) h = Some h.
Proof. cbn [fill_above]. replace (_ && _) with false by lia. reflexivity. Qed.

Lemma tspan t : tmax t - tmin t < 2 ^ nbits t.
Proof. destruct t; cbv; reflexivity. Qed.

Lemma histogram_map_ok t im mask fr : wf_img im -> typed_img t im -> pixs im <> [] ->
  Z.of_nat (length (pixs im)) < 2 ^ 32 -> (forall m, mask = Some m -> length (pixs m) = length (pixs im)) ->
  exists h, histogram_map t im mask fr = Some h /\ StronglySorted Z.lt (mkeys h) /\
    (forall v, mget 0 v h = Z.of_nat (count_occ Z.eq_dec (counted im mask) v)) /\
    (forall v, In v (pixs im) -> In v (mkeys h)) /\
    (forall v, In v (mkeys h) -> inty t v) /\
    (fr = true -> (exists p, In p (pixs im) /\ p <> tmin t) -> forall v, inty t v -> In v (mkeys h)).
Proof.
  intros Hwf HT HN HC HM. unfold histogram_map.
  destruct (rangeVal_ok t false im Hwf HT HN) as (lo & hi & E & I1 & I2 & HB). rewrite E. cbn [option_bind fst snd].
  cbn [considered] in I1, I2, HB. unfold considered in I1, I2, HB.
  unfold typed_img in HT. rewrite Forall_forall in HT. pose proof (HT lo I1) as T1. pose proof (HT hi I2) as T2. unfold inty in T1, T2.
  pose proof (HB lo I1) as B1.
  replace (hi - lo + 1 <=? 0) with false by lia. rewrite wf_count by exact Hwf.
  destruct (hist_loop im mask lo (hi - lo + 1) HM ltac:(lia)) as (buf & Eb & L1 & L2 & L3).
  { intros v Hv. specialize (HB v Hv). lia. }
  rewrite Eb. cbn [option_bind].
  set (h1 := if fr then fold_left (fun h i => minsert i 0 h) (zrange (tmin t) (lo - tmin t)) [] else []).
  assert (H1 : msorted h1 /\ forall v, mfind v h1 = if fr && (tmin t <=? v) && (v <? lo) then Some 0 else None).
  { unfold h1. destruct fr; cbn [andb]; [|split; [constructor|reflexivity]].
    destruct (minsert_all (fun _ => 0) (zrange (tmin t) (lo - tmin t)) [] msorted_nil) as [M1 M2]. split; [exact M1|].
    intros v. rewrite M2. cbn [mfind]. destruct (in_dec Z.eq_dec v _) as [I|I]; rewrite zrange_In in I.
    - replace (_ && _) with true by lia. reflexivity.
    - replace (_ && _) with false by lia. reflexivity. }
  clearbody h1. destruct H1 as [H1 F1].
  set (cnt0 := fun v => Z.of_nat (count_occ Z.eq_dec (counted im mask) v)).
  set (h2 := fold_left _ (zseq (hi - lo + 1)) h1).
  assert (Eh2 : h2 = fold_left (fun h j => minsert j (cnt0 j) h) (zrange lo (hi - lo + 1)) h1).
  { unfold h2, zrange. rewrite fold_left_map. apply fold_left_ext. intros h i Hi. apply zseq_In in Hi.
    rewrite wrap_id by (unfold inty; lia). replace (i + lo) with (lo + i) by lia. f_equal.
    specialize (L2 (lo + i)). replace (lo + i - lo) with i in L2 by lia. rewrite (znth_rd 0 _ _ _ (L2 ltac:(lia))).
    apply wrap_id. unfold inty, cnt0. cbn. split; [lia|].
    assert (count_occ Z.eq_dec (counted im mask) (lo + i)%Z <= length (pixs im))%nat; [|lia].
    rewrite counted_count by exact HM. etransitivity; [apply filter_length_le|]. rewrite zseq_length. lia. }
  clearbody h2. destruct (minsert_all cnt0 (zrange lo (hi - lo + 1)) h1 H1) as [M1 M2]. rewrite <- Eh2 in M1, M2.
  assert (F2 : forall v, mfind v h2 = if fr && (tmin t <=? v) && (v <? lo) then Some 0
     else if (lo <=? v) && (v <=? hi) then Some (cnt0 v) else None).
  { intros v. rewrite M2, F1. destruct (fr && _ && _) eqn:Ef; [reflexivity|].
    destruct (in_dec Z.eq_dec v _) as [I|I]; rewrite zrange_In in I.
    - replace (_ && _) with true by lia. reflexivity.
    - replace (_ && _) with false by lia. reflexivity. }
  assert (Z0 : forall v, ~ (lo <= v <= hi) -> cnt0 v = 0).
  { intros v Hv. unfold cnt0. rewrite counted_count by exact HM. rewrite filter_none; [reflexivity|].
    intros i Hi. apply zseq_In in Hi. assert (Hin : In (znth 0 (pixs im) i) (pixs im)) by (eapply rd_In; apply rd_znth; exact Hi).
    specialize (HB _ Hin). lia. }
  assert (G : exists h, (if fr then fill_above t (S (Z.to_nat (2 ^ nbits t))) hi h2 else Some h2) = Some h /\ msorted h /\
     forall v, mfind v h = match mfind v h2 with Some c => Some c | None =>
        if fr && negb (hi =? tmin t) && (hi <=? v) && (v <=? tmax t) then Some 0 else None end).
  { destruct fr; cbn [andb].
    2: { exists h2. split; [reflexivity|]. split; [exact M1|]. intros v. destruct (mfind v h2); reflexivity. }
    destruct (Z.eqb_spec hi (tmin t)) as [Eq|Nq]; cbn [negb andb].
    - exists h2. split; [|split; [exact M1|intros v; destruct (mfind v h2); reflexivity]].
      rewrite Eq. apply fill_above_min.
    - pose proof (fill_above_ok t (S (Z.to_nat (2 ^ nbits t))) hi h2) as FA.
      replace (if hi <=? tmax t then hi else tmin t) with hi in FA by (destruct (Z.leb_spec hi (tmax t)); lia).
      rewrite FA by (pose proof (tspan t); lia). eexists. split; [reflexivity|].
      destruct (minsert_all (fun _ => 0) (zrange hi (tmax t + 1 - hi)) h2 M1) as [N1 N2]. split; [exact N1|].
      intros v. rewrite N2. destruct (mfind v h2); [reflexivity|].
      destruct (in_dec Z.eq_dec v _) as [I|I]; rewrite zrange_In in I.
      + replace (_ && _) with true by lia. reflexivity.
      + replace (_ && _) with false by lia. reflexivity. }
  destruct G as (h & Eh & S1 & S2). exists h. split; [exact Eh|]. split; [exact S1|]. split; [|split; [|split]].
  - intros v. unfold mget. rewrite S2, F2. fold (cnt0 v).
    destruct (fr && _ && (v <? lo)) eqn:X1; [rewrite Z0; lia|].
    destruct ((lo <=? v) && (v <=? hi)) eqn:X2; [reflexivity|].
    rewrite Z0 by lia. match goal with |- context [if ?c then Some 0 else None] => destruct c end; reflexivity.
  - intros v Hv. apply In_mkeys_mfind. rewrite S2, F2. specialize (HB v Hv).
    destruct (fr && _ && (v <? lo)) eqn:X1; [discriminate|]. replace ((lo <=? v) && (v <=? hi)) with true by lia. discriminate.
  - intros v Hv. apply In_mkeys_mfind in Hv. rewrite S2, F2 in Hv. unfold inty.
    destruct (fr && _ && (v <? lo)) eqn:X1; [lia|].
    destruct ((lo <=? v) && (v <=? hi)) eqn:X2; [lia|].
    destruct (fr && negb (hi =? tmin t) && (hi <=? v) && (v <=? tmax t)) eqn:X3; [lia|congruence].
  - intros -> (p & P1 & P2) v Hv. unfold inty in Hv. specialize (HB p P1). specialize (HT p P1). unfold inty in HT.
    apply In_mkeys_mfind. rewrite S2, F2. cbn [andb].
    destruct (_ && (v <? lo)) eqn:X1; [discriminate|].
    destruct ((lo <=? v) && (v <=? hi)) eqn:X2; [discriminate|].
    replace (_ && _) with true by lia. discriminate.
Qed.

(** * Blobs *)
Section Blobs.
Variable onz : bool.
Variable im : img.
Let val (k : Z) : Z := znth 0 (pixs im) k.
Let w := dw (sz im).

Local Notation kept := (label_kept onz).
Local Notation seq_ok := (run_in_line w).
Local Notation offs := run_pixels.

Definition blob_inv (b : blobs) (dom : list Z) : Prop :=
  msorted b /\
  (forall v, kept v = true -> offs (mget [] v b) = filter (fun k => val k =? v) dom) /\
  (forall v l, mfind v b = Some l -> kept v = true /\ l <> [] /\ Forall seq_ok l).

Lemma offs_app l1 l2 : offs (l1 ++ l2) = offs l1 ++ offs l2.
Proof. apply flat_map_app. Qed.

Lemma blob_push b dom v a n : blob_inv b dom -> kept v = true -> seq_ok (a, n) ->
  (forall k, In k (zrange a n) -> val k = v) -> blob_inv (push_seq b v (a, n)) (dom ++ zrange a n).
Proof.
  intros (H1 & H2 & H3) Hk Hs Hv. unfold push_seq. split; [|split].
  - apply msorted_mput. exact H1.
  - intros u Hu. unfold mget at 1. rewrite mfind_mput by exact H1. rewrite filter_app.
    destruct (Z.eqb_spec u v) as [->|N].
    + rewrite offs_app, H2 by exact Hk. f_equal. cbn [run_pixels flat_map fst snd]. rewrite app_nil_r. symmetry. apply filter_all.
      intros k K. rewrite Hv by exact K. lia.
    + rewrite (filter_none _ (zrange a n)), app_nil_r by (intros k K; rewrite Hv by exact K; lia). apply H2. exact Hu.
  - intros u l. rewrite mfind_mput by exact H1. destruct (Z.eqb_spec u v) as [->|N]; [|apply H3].
    intros [= <-]. split; [exact Hk|]. split; [intros E; apply app_eq_nil in E as [_ E]; discriminate|].
    apply Forall_app. split; [|constructor; [exact Hs|constructor]].
    unfold mget. destruct (mfind v b) eqn:E; [|constructor]. apply (H3 v). exact E.
Qed.

Lemma blob_skip b dom v a n : blob_inv b dom -> kept v = false ->
  (forall k, In k (zrange a n) -> val k = v) -> blob_inv b (dom ++ zrange a n).
Proof.
  intros (H1 & H2 & H3) Hk Hv. split; [exact H1|]. split; [|exact H3].
  intros u Hu. rewrite filter_app, (filter_none _ (zrange a n)), app_nil_r; [apply H2; exact Hu|].
  intros k K. rewrite Hv by exact K. assert (u <> v) by congruence. lia.
Qed.

Lemma blob_line_ok ln l : forall a n v cs cz b dom,
  0 < n -> ln * w <= a -> a + n + Z.of_nat (length l) <= (ln + 1) * w -> 0 < w ->
  l = map val (zrange (a + n) (Z.of_nat (length l))) ->
  (forall k, In k (zrange a n) -> val k = v) ->
  (kept v = true -> cs = a /\ cz = n) ->
  blob_inv b dom ->
  blob_inv (blob_line onz l (a + n) cs cz v b) (dom ++ zrange a (n + Z.of_nat (length l))).
Proof.
  assert (SOK : forall a n, 0 < n -> ln * w <= a -> a + n <= (ln + 1) * w -> 0 < w -> seq_ok (a, n)).
  { intros a n Hn Ha Han Hw. split; [exact Hn|]. cbn [fst snd].
    rewrite <- (Z.div_unique_pos a w ln (a - ln * w)) by lia.
    rewrite <- (Z.div_unique_pos (a + n - 1) w ln (a + n - 1 - ln * w)) by lia. reflexivity. }
  induction l as [|p l IH]; intros a n v cs cz b dom Hn Ha Han Hw El Hv Hk Hb.
  - cbn [blob_line length]. replace (n + Z.of_nat 0) with n by lia. fold (kept v).
    destruct (kept v) eqn:Ek.
    + destruct (Hk eq_refl) as [-> ->]. apply blob_push; auto. apply SOK; auto. cbn in Han. lia.
    + eapply blob_skip; eauto.
  - cbn [length] in Han, El |- *. rewrite zrange_cons in El by lia.
    replace (Z.of_nat (S (length l)) - 1) with (Z.of_nat (length l)) in El by lia.
    cbn [map] in El. injection El as Ep El.
    cbn [blob_line]. fold (kept v). destruct (Z.eqb_spec p v) as [E|N].
    + replace (n + Z.of_nat (S (length l))) with (n + 1 + Z.of_nat (length l)) by lia. rewrite <- Z.add_assoc.
      apply IH; try lia; auto.
      * rewrite Z.add_assoc. exact El.
      * intros k K. rewrite zrange_snoc in K by lia. apply in_app_or in K as [K|[<-|[]]]; [auto|congruence].
    + replace (n + Z.of_nat (S (length l))) with (n + (1 + Z.of_nat (length l))) by lia.
      rewrite zrange_app by lia. rewrite app_assoc. apply IH; try lia; auto.
      * intros k K. rewrite zrange_cons, zrange_nil in K by lia. destruct K as [<-|[]]. congruence.
      * destruct (kept v) eqn:Ek.
        -- destruct (Hk eq_refl) as [-> ->]. apply blob_push; auto. apply SOK; auto. lia.
        -- eapply blob_skip; eauto.
Qed.

Lemma computeBlobs_inv : wf_img im -> 0 < w ->
  exists b, computeBlobs onz im = Some b /\ blob_inv b (zseq (Z.of_nat (length (pixs im)))).
Proof.
  intros Hwf Hw. pose proof Hwf as [Hd HL]. pose proof Hd as (D1 & D2 & D3). unfold computeBlobs.
  assert (HLc : Z.of_nat (length (pixs im)) = lineCount (sz im) * w) by (rewrite HL; unfold lineCount, w; ring).
  assert (L0 : 0 <= lineCount (sz im)) by (unfold lineCount; apply Z.mul_nonneg_nonneg; lia).
  rewrite HLc, zseq_mul by lia.
  apply (fold_opt_inv (fun done b => blob_inv b (flat_map (fun l => zrange (l * w) w) done))).
  - split; [constructor|]. split; [reflexivity|discriminate].
  - intros done l todo b E Hb.
    assert (Hl : 0 <= l < lineCount (sz im)) by (apply zseq_In; rewrite E; apply in_elt).
    rewrite rd_restruct_lines by assumption. cbn [option_bind]. unfold width. fold w.
    assert (B : (l + 1) * w <= lineCount (sz im) * w) by (apply Z.mul_le_mono_nonneg_r; lia).
    assert (0 <= l * w) by (apply Z.mul_nonneg_nonneg; lia).
    rewrite (subarray_ok 0) by lia. cbn [option_bind]. rewrite zrange_cons by lia. cbn [map].
    eexists. split; [reflexivity|]. rewrite flat_map_app. cbn [flat_map]. rewrite app_nil_r.
    pose proof (blob_line_ok l (map val (zrange (l * w + 1) (w - 1))) (l * w) 1 (val (l * w)) (l * w)
      (if negb (val (l * w) =? 0) || negb onz then 1 else 0) b (flat_map (fun l => zrange (l * w) w) done)) as G.
    rewrite map_length, zrange_length, Z2Nat.id in G by lia.
    replace (1 + (w - 1)) with w in G by lia. apply G; auto; try lia.
    + intros k K. rewrite zrange_cons, zrange_nil in K by lia. destruct K as [<-|[]]. reflexivity.
    + unfold label_kept. intros ->. split; reflexivity.
Qed.

Lemma computeBlobs_ok : wf_img im -> 0 < w ->
  exists b, computeBlobs onz im = Some b /\ StronglySorted Z.lt (mkeys b) /\
    (forall v, In v (mkeys b) <-> kept v = true /\ In v (pixs im)) /\
    (forall v l, mfind v b = Some l ->
       offs l = filter (fun k => val k =? v) (zseq (Z.of_nat (length (pixs im)))) /\ l <> [] /\ Forall seq_ok l).
Proof.
  intros Hwf Hw. destruct (computeBlobs_inv Hwf Hw) as (b & E & H1 & H2 & H3). exists b. split; [exact E|]. split; [exact H1|].
  assert (H4 : forall v l, mfind v b = Some l ->
       offs l = filter (fun k => val k =? v) (zseq (Z.of_nat (length (pixs im)))) /\ l <> [] /\ Forall seq_ok l).
  { intros v l F. destruct (H3 v l F) as (K1 & K2 & K3). split; [|split; assumption].
    rewrite <- H2 by exact K1. unfold mget. rewrite F. reflexivity. }
  split; [|exact H4]. intros v. rewrite In_mkeys_mfind. split.
  - destruct (mfind v b) as [l|] eqn:F; [intros _|congruence]. destruct (H3 v l F) as (K1 & K2 & K3). split; [exact K1|].
    destruct (H4 v l F) as (O & _ & _). destruct l as [|[a n] l]; [congruence|].
    inversion K3 as [|? ? [S1 _] _]; subst. cbn in S1.
    assert (Hin : In a (offs ((a, n) :: l))) by (cbn; apply in_or_app; left; apply zrange_In; lia).
    rewrite O in Hin. apply filter_In in Hin as [I1 I2]. apply zseq_In in I1.
    replace v with (val a) by lia. eapply rd_In. apply rd_znth. exact I1.
  - intros [K Hin] F. apply In_rd in Hin as (i & I1 & I2).
    specialize (H2 v K). unfold mget in H2. rewrite F in H2. cbn in H2.
    assert (In i (filter (fun k => val k =? v) (zseq (Z.of_nat (length (pixs im)))))) as J.
    { apply filter_In. split; [apply zseq_In; exact I1|]. unfold val. rewrite (znth_rd 0 _ _ _ I2). lia. }
    rewrite <- H2 in J. destruct J.
Qed.
End Blobs.

Lemma write_all (c : Z) is : forall px, (forall i, In i is -> 0 <= i < Z.of_nat (length px)) ->
  exists px', fold_opt (fun px i => wr px i c) is px = Some px' /\ length px' = length px /\
    forall k, rd px' k = if in_dec Z.eq_dec k is then Some c else rd px k.
Proof.
  intros px HR.
  apply (fold_opt_inv (fun done px' => length px' = length px /\
    forall k, rd px' k = if in_dec Z.eq_dec k done then Some c else rd px k)).
  - split; [reflexivity|]. intros k. destruct (in_dec Z.eq_dec k []) as [[]|_]. reflexivity.
  - intros done a todo b E [H1 H2].
    destruct (wr_Some b a c) as [b' Eb]; [rewrite H1; apply HR; rewrite E; apply in_elt|].
    exists b'. split; [exact Eb|]. split; [rewrite (wr_length _ _ _ _ Eb); exact H1|].
    intros k. rewrite (rd_wr _ _ _ _ k Eb), H2.
    destruct (Z.eqb_spec a k) as [->|N], (in_dec Z.eq_dec k done) as [I|I], (in_dec Z.eq_dec k (done ++ [_])) as [J|J]; try reflexivity; exfalso.
    + apply J. apply in_elt.
    + apply J. apply in_elt.
    + apply J. apply in_or_app; left; exact I.
    + apply in_app_or in J as [J|[J|[]]]; congruence.
Qed.

Lemma draw_all (onz : bool) (im : img) (f : Z -> Z) b px0 N :
  wf_img im -> 0 < dw (sz im) -> computeBlobs onz im = Some b ->
  N = Z.of_nat (length (pixs im)) -> 0 < N -> Z.of_nat (length px0) = N ->
  let lastv := znth 0 (pixs im) (N - 1) in
  exists px, fold_opt (fun st (e : Z * list (Z * Z)) => draw_blob (f (fst e)) (snd e) st) b (true, px0) =
      Some (negb (label_kept onz lastv), px) /\ length px = length px0 /\
    forall k v, 0 <= k < N -> v = znth 0 (pixs im) k ->
      rd px k = if label_kept onz v && negb (v =? lastv) then Some (f v) else rd px0 k.
Proof.
  intros Hwf Hw Eb -> HN HL lastv. set (N := Z.of_nat (length (pixs im))) in *.
  destruct (computeBlobs_ok onz im Hwf Hw) as (b' & Eb' & S1 & S2 & S3). rewrite Eb in Eb'. injection Eb' as <-.
  assert (G : exists st, fold_opt (fun st (e : Z * list (Z * Z)) => draw_blob (f (fst e)) (snd e) st) b (true, px0) = Some st /\
     length (snd st) = length px0 /\ fst st = negb (existsb (Z.eqb lastv) (mkeys b)) /\
     forall k v, 0 <= k < N -> v = znth 0 (pixs im) k ->
       rd (snd st) k = if (if in_dec Z.eq_dec v (mkeys b) then true else false) && negb (v =? lastv) then Some (f v) else rd px0 k).
  { apply (fold_opt_inv (fun (done : blobs) st => length (snd st) = length px0 /\ fst st = negb (existsb (Z.eqb lastv) (mkeys done)) /\
     forall k v, 0 <= k < N -> v = znth 0 (pixs im) k ->
       rd (snd st) k = if (if in_dec Z.eq_dec v (mkeys done) then true else false) && negb (v =? lastv) then Some (f v) else rd px0 k)).
    - split; [reflexivity|]. split; [reflexivity|]. intros k v Hk Ev. cbn. reflexivity.
    - intros done [v l] todo [ok px] E (H1 & H2 & H3). cbn [fst snd] in *.
      assert (Fv : mfind v b = Some l) by (apply msorted_In; [exact S1|rewrite E; apply in_elt]).
      destruct (S3 v l Fv) as (O1 & O2 & O3).
      assert (Hdone : ~ In v (mkeys done)).
      { unfold mkeys in S1. rewrite E, map_app in S1. cbn in S1. apply sorted_split in S1 as [S1 _]. intros C. specialize (S1 v C). lia. }
      destruct (exists_last O2) as (l' & [a n] & ->). unfold draw_blob. rewrite rev_app_distr. cbn [rev app fst snd].
      rewrite offs_app in O1. cbn [run_pixels flat_map fst snd] in O1. rewrite app_nil_r in O1. fold (run_pixels l') in O1.
      apply Forall_app in O3 as [_ O3]. inversion O3 as [|? ? [P1 _] _]; subst. cbn [fst snd] in P1.
      assert (Hin : forall k, In k (run_pixels l' ++ zrange a n) <-> 0 <= k < N /\ znth 0 (pixs im) k = v).
      { intros k. rewrite O1, filter_In, zseq_In. fold N. lia. }
      assert (Ha : 0 <= a /\ a + n <= N).
      { assert (A1 := proj1 (Hin a)). assert (A2 := proj1 (Hin (a + n - 1))). rewrite !in_app_iff, !zrange_In in *.
        destruct A1; [right; lia|]. destruct A2; [right; lia|]. lia. }
      assert (Hlast : (a + n >= N) <-> v = lastv).
      { unfold lastv. split.
        - intros Hge. symmetry. apply Hin. apply in_or_app. right. apply zrange_In. lia.
        - intros ->. assert (Hn1 : In (N - 1) (run_pixels l' ++ zrange a n)) by (apply Hin; split; [lia|reflexivity]).
          apply in_app_or in Hn1 as [Hn1|Hn1]; [|apply zrange_In in Hn1; lia]. exfalso.
          assert (SS : StronglySorted Z.lt (run_pixels l' ++ zrange a n)).
          { rewrite O1. apply filter_sorted. apply zseq_sorted. }
          rewrite zrange_cons in SS by lia. apply sorted_split in SS as [SS _]. specialize (SS _ Hn1). lia. }
      assert (Kd : forall u, (if in_dec Z.eq_dec u (mkeys (done ++ [(v, l' ++ [(a, n)])])) then true else false) =
                     (if in_dec Z.eq_dec u (mkeys done) then true else false) || (u =? v)).
      { intros u. unfold mkeys. rewrite map_app. cbn [map fst].
        destruct (in_dec Z.eq_dec u (map fst done ++ [v])) as [I|I], (in_dec Z.eq_dec u (map fst done)) as [J|J]; cbn [orb]; try reflexivity.
        - apply in_app_or in I as [I|[I|[]]]; [contradiction|]. lia.
        - exfalso. apply I. apply in_or_app. left. exact J.
        - destruct (Z.eqb_spec u v) as [->|]; [|reflexivity]. exfalso. apply I. apply in_elt. }
      assert (Ke : existsb (Z.eqb lastv) (mkeys (done ++ [(v, l' ++ [(a, n)])])) = existsb (Z.eqb lastv) (mkeys done) || (lastv =? v)).
      { unfold mkeys. rewrite map_app, existsb_app. cbn. rewrite orb_false_r. reflexivity. }
      fold (mkeys done) in *. destruct (Z.geb_spec (a + n) (Z.of_nat (length px))) as [Ge|Lt].
      + assert (v = lastv) as -> by (apply Hlast; lia). eexists. split; [reflexivity|]. cbn [fst snd].
        split; [exact H1|]. split; [rewrite Ke, Z.eqb_refl, orb_true_r; reflexivity|].
        intros k u Hk Eu. rewrite Kd, (H3 k u Hk Eu).
        destruct (in_dec Z.eq_dec u (mkeys done)); cbn [orb andb]; [reflexivity|]. destruct (u =? lastv); reflexivity.
      + rewrite <- (fold_opt_flat_map (fun px i => wr px i (f v)) (fun s : Z * Z => zrange (fst s) (snd s))).
        fold (run_pixels (l' ++ [(a, n)])). rewrite offs_app. cbn [run_pixels flat_map fst snd]. rewrite app_nil_r. fold (run_pixels l').
        destruct (write_all (f v) (run_pixels l' ++ zrange a n) px) as (px' & W1 & W2 & W3).
        { intros i Hi. apply Hin in Hi as [Hi _]. lia. }
        rewrite W1. cbn [option_map]. eexists. split; [reflexivity|]. cbn [fst snd]. split; [congruence|].
        assert (v <> lastv) by (intros C; apply Hlast in C; lia).
        split; [rewrite Ke; replace (lastv =? v) with false by lia; rewrite orb_false_r; reflexivity|].
        intros k u Hk Eu. rewrite W3, Kd. destruct (in_dec Z.eq_dec k (run_pixels l' ++ zrange a n)) as [I|I]; rewrite Hin in I.
        * assert (u = v) as -> by lia. destruct (in_dec Z.eq_dec v (mkeys done)); [contradiction|]. cbn [orb].
          rewrite Z.eqb_refl. replace (v =? lastv) with false by lia. reflexivity.
        * rewrite (H3 k u Hk Eu). replace (u =? v) with false by lia. rewrite orb_false_r. reflexivity. }
  destruct G as ([ok px] & G1 & G2 & G3 & G4). cbn [fst snd] in *. exists px. split; [|split; [exact G2|]].
  - rewrite G1. f_equal. f_equal. rewrite G3. f_equal.
    assert (Hl : In lastv (pixs im)) by (eapply rd_In; apply rd_znth; lia).
    destruct (existsb (Z.eqb lastv) (mkeys b)) eqn:Ex.
    + apply existsb_exists in Ex as (u & U1 & U2). apply S2 in U1 as [U1 _]. replace lastv with u by lia. symmetry. exact U1.
    + destruct (label_kept onz lastv) eqn:Ek; [|reflexivity]. exfalso.
      assert (In lastv (mkeys b)) as C by (apply S2; split; assumption).
      assert (existsb (Z.eqb lastv) (mkeys b) = true); [|congruence]. apply existsb_exists. exists lastv. split; [exact C|lia].
  - intros k v Hk Ev. rewrite (G4 k v Hk Ev).
    replace (if in_dec Z.eq_dec v (mkeys b) then true else false) with (label_kept onz v); [reflexivity|].
    assert (Hv : In v (pixs im)) by (subst v; eapply rd_In; apply rd_znth; exact Hk).
    destruct (in_dec Z.eq_dec v (mkeys b)) as [I|I].
    + apply S2 in I as [I _]. exact I.
    + destruct (label_kept onz v) eqn:Ek; [|reflexivity]. exfalso. apply I. apply S2. split; assumption.
Qed.

(** * Lookup tables *)
Lemma write_map (f : Z -> Z) px n : n = Z.of_nat (length px) ->
  fold_opt (fun px i => wr px i (f i)) (zseq n) px = Some (map f (zseq n)).
Proof.
  intros ->.
  destruct (fold_opt_inv (fun done px' => length px' = length px /\
    forall k, 0 <= k < Z.of_nat (length px) -> rd px' k = if in_dec Z.eq_dec k done then Some (f k) else rd px k)
    (fun px i => wr px i (f i)) (zseq (Z.of_nat (length px))) px) as (px' & E & H1 & H2).
  - split; [reflexivity|]. intros k Hk. destruct (in_dec Z.eq_dec k []) as [[]|_]. reflexivity.
  - intros done a todo b E [H1 H2].
    destruct (wr_Some b a (f a)) as [b' Eb]; [rewrite H1; apply zseq_In; rewrite E; apply in_elt|].
    exists b'. split; [exact Eb|]. split; [rewrite (wr_length _ _ _ _ Eb); exact H1|].
    intros k Hk. rewrite (rd_wr _ _ _ _ k Eb), H2 by exact Hk.
    destruct (Z.eqb_spec a k) as [->|N], (in_dec Z.eq_dec k done) as [I|I], (in_dec Z.eq_dec k (done ++ [_])) as [J|J]; try reflexivity; exfalso.
    + apply J. apply in_elt.
    + apply J. apply in_elt.
    + apply J. apply in_or_app; left; exact I.
    + apply in_app_or in J as [J|[J|[]]]; congruence.
  - rewrite E. f_equal. apply list_ext_rd; [rewrite map_length, zseq_length; lia|].
    intros i Hi. rewrite H1 in Hi. rewrite H2 by exact Hi. rewrite rd_map, rd_zseq by exact Hi. cbn.
    destruct (in_dec Z.eq_dec i _) as [I|I]; [reflexivity|]. exfalso. apply I. apply zseq_In. exact Hi.
Qed.

Definition lookup_of (lut : zmap Z) (def v : Z) : Z := mget def v lut.

Lemma map_pixels (g : Z -> Z) (l : list Z) : map (fun i => g (znth 0 l i)) (zseq (Z.of_nat (length l))) = map g l.
Proof. rewrite <- (map_map (znth 0 l) g), map_znth_zseq. reflexivity. Qed.

Lemma lut_max_le (lut : zmap Z) : forall m, (forall e, In e lut -> snd e <= fold_left (fun m (p : Z * Z) => if m <? snd p then snd p else m) lut m) /\
   m <= fold_left (fun m (p : Z * Z) => if m <? snd p then snd p else m) lut m /\
   (fold_left (fun m (p : Z * Z) => if m <? snd p then snd p else m) lut m = m \/
    exists e, In e lut /\ snd e = fold_left (fun m (p : Z * Z) => if m <? snd p then snd p else m) lut m).
Proof.
  induction lut as [|e lut IH]; intros m; cbn [fold_left].
  - split; [intros e []|]. split; [lia|left; reflexivity].
  - destruct (IH (if m <? snd e then snd e else m)) as (I1 & I2 & I3). set (r := fold_left _ _ _) in *.
    split; [|split].
    + intros e' [<-|He]; [destruct (Z.ltb_spec m (snd e)); lia|apply I1; exact He].
    + destruct (Z.ltb_spec m (snd e)); lia.
    + destruct I3 as [I3|(e' & E1 & E2)]; [|right; exists e'; split; [right; exact E1|exact E2]].
      destruct (Z.ltb_spec m (snd e)); [right; exists e; split; [left; reflexivity|lia]|left; lia].
Qed.

Lemma applyLookup_gen_ok t2 lut def im out : wf_img im -> wf_img out -> sz im = sz out -> lut <> [] ->
  ((forall k v, In (k, v) lut -> v <= tmax t2) ->
     applyLookup_gen t2 lut def im out =
     Some (1, Img (sz out) (map (fun v => match mfind v lut with Some x => wrap t2 x | None => def end) (pixs im)))) /\
  ((exists k v, In (k, v) lut /\ tmax t2 < v) -> applyLookup_gen t2 lut def im out = Some (-100, out)).
Proof.
  intros Hi Ho Es HN. unfold applyLookup_gen. destruct lut as [|e r] eqn:El; [congruence|]. rewrite <- El.
  destruct (lut_max_le r (snd e)) as (M1 & M2 & M3). set (mx := fold_left _ r (snd e)) in *. split.
  - intros HB. assert (mx <= tmax t2).
    { destruct M3 as [->|([k v] & I & <-)]; [apply (HB (fst e)); rewrite El; left; destruct e; reflexivity|].
      apply (HB k). rewrite El. right. exact I. }
    replace (mx >? tmax t2) with false by lia.
    assert (L : length (pixs im) = length (pixs out)) by (destruct Hi as [_ Hi], Ho as [_ Ho]; rewrite Es in Hi; lia).
    rewrite wf_count by exact Hi.
    rewrite (fold_opt_ext _ (fun px i => wr px i ((fun v => match mfind v lut with Some x => wrap t2 x | None => def end) (znth 0 (pixs im) i)))).
    2: { intros b a Ha. apply zseq_In in Ha. rewrite (rd_znth 0) by exact Ha. reflexivity. }
    rewrite (write_map (fun i => (fun v => match mfind v lut with Some x => wrap t2 x | None => def end) (znth 0 (pixs im) i))) by lia.
    cbn [option_map]. do 3 f_equal. apply (map_pixels (fun v => match mfind v lut with Some x => wrap t2 x | None => def end)).
  - intros (k & v & I & V). assert (tmax t2 < mx).
    { rewrite El in I. destruct I as [I|I]; [rewrite I in M2; cbn [snd] in M2; lia|]. specialize (M1 _ I). cbn in M1. lia. }
    replace (mx >? tmax t2) with true by lia. reflexivity.
Qed.

Lemma lut_writes (lut : zmap Z) : forall tab, msorted lut -> (forall k, In k (mkeys lut) -> 0 <= k < Z.of_nat (length tab)) ->
  exists tab', fold_opt (fun tab (e : Z * Z) => wr tab (fst e) (Some (snd e))) lut tab = Some tab' /\ length tab' = length tab /\
    forall k, rd tab' k = match mfind k lut with Some v => Some (Some v) | None => rd tab k end.
Proof.
  induction lut as [|[k v] lut IH]; intros tab HS HK; cbn [fold_opt fst snd mfind].
  - exists tab. repeat split; reflexivity.
  - destruct (wr_Some tab k (Some v)) as [tab1 E1]; [apply HK; left; reflexivity|]. rewrite E1.
    inversion HS as [|? ? HS' HF]; subst. rewrite Forall_forall in HF.
    destruct (IH tab1 HS') as (tab' & E2 & L2 & R2).
    { intros j Hj. rewrite (wr_length _ _ _ _ E1). apply HK. right. exact Hj. }
    exists tab'. split; [exact E2|]. split; [rewrite L2; eapply wr_length; exact E1|].
    intros j. rewrite R2, (rd_wr _ _ _ _ j E1). destruct (Z.eqb_spec k j) as [->|N].
    + rewrite mfind_None_keys; [rewrite Z.eqb_refl; reflexivity|]. intros C. specialize (HF j C). cbn in HF. lia.
    + destruct (Z.eqb_spec j k); [congruence|reflexivity].
Qed.

Lemma applyLookup_small_ok t1 lut def im out : t1 = UINT8 \/ t1 = UINT16 ->
  wf_img im -> wf_img out -> sz im = sz out -> typed_img t1 im -> msorted lut -> lut <> [] ->
  (forall k, In k (mkeys lut) -> inty t1 k) ->
  (forall v, In v (pixs im) -> v <> tmax t1 \/ In v (mkeys lut)) ->
  applyLookup_small t1 lut def im out = Some (1, Img (sz out) (map (fun v => mget def v lut) (pixs im))).
Proof.
  intros Ht Hi Ho Es HT HS HN HK HV. unfold applyLookup_small. destruct lut as [|e r] eqn:El; [congruence|]. rewrite <- El in *. clear El e r.
  assert (T : tmin t1 = 0 /\ tcard t1 = tmax t1 + 1 /\ 0 < tmax t1) by (destruct Ht as [-> | ->]; repeat split; reflexivity).
  destruct T as (T1 & T2 & T3).
  set (tab0 := repeat (@None Z) (Z.to_nat (tcard t1))).
  assert (L0 : Z.of_nat (length tab0) = tmax t1 + 1) by (unfold tab0; rewrite repeat_length; lia).
  assert (W : exists tab1, fold_opt (fun tab i => wr tab i (Some def)) (zseq (tmax t1)) tab0 = Some tab1 /\ length tab1 = length tab0 /\
     forall k, 0 <= k < tmax t1 -> rd tab1 k = Some (Some def)).
  { clearbody tab0. destruct (fold_opt_inv (fun done tab => length tab = length tab0 /\ forall k, In k done -> rd tab k = Some (Some def))
      (fun tab i => wr tab i (Some def)) (zseq (tmax t1)) tab0) as (tab1 & E1 & L1 & R1).
    - split; [reflexivity|intros k []].
    - intros done a todo b E [H1 H2]. destruct (wr_Some b a (Some def)) as [b' Eb].
      { assert (In a (zseq (tmax t1))) as Ia by (rewrite E; apply in_elt). apply zseq_In in Ia. lia. }
      exists b'. split; [exact Eb|]. split; [rewrite (wr_length _ _ _ _ Eb); exact H1|].
      intros k Hk. rewrite (rd_wr _ _ _ _ k Eb). destruct (Z.eqb_spec a k); [reflexivity|].
      apply in_app_or in Hk as [Hk|[Hk|[]]]; [auto|contradiction].
    - exists tab1. split; [exact E1|]. split; [exact L1|]. intros k Hk. apply R1. apply zseq_In. exact Hk. }
  destruct W as (tab1 & E1 & L1 & R1). rewrite E1. cbn [option_bind].
  destruct (lut_writes lut tab1 HS) as (tab2 & E2 & L2 & R2).
  { intros k Hk. specialize (HK k Hk). unfold inty in HK. lia. }
  rewrite E2. cbn [option_bind]. rewrite wf_count by exact Hi.
  assert (L : length (pixs im) = length (pixs out)) by (destruct Hi as [_ Hi], Ho as [_ Ho]; rewrite Es in Hi; lia).
  unfold typed_img in HT. rewrite Forall_forall in HT.
  rewrite (fold_opt_ext _ (fun px i => wr px i ((fun v => mget def v lut) (znth 0 (pixs im) i)))).
  2: { intros b a Ha. apply zseq_In in Ha. rewrite (rd_znth 0) by exact Ha. cbn [option_bind].
       set (v := znth 0 (pixs im) a). assert (Hv : In v (pixs im)) by (eapply rd_In; apply rd_znth; exact Ha).
       rewrite R2. unfold mget. destruct (mfind v lut) eqn:F; [reflexivity|].
       rewrite R1; [reflexivity|]. specialize (HT v Hv). unfold inty in HT. destruct (HV v Hv) as [N|N]; [lia|].
       apply In_mkeys_mfind in N. congruence. }
  rewrite (write_map (fun i => (fun v => mget def v lut) (znth 0 (pixs im) i))) by lia.
  cbn [option_map]. do 3 f_equal. apply (map_pixels (fun v => mget def v lut)).
Qed.

(** * Binned histograms *)
Lemma quot_inty t v n : inty t v -> 1 <= n -> inty t (Z.quot v n).
Proof.
  intros Hv Hn. pose proof (tmin_le0 t). pose proof (tmax_pos t). unfold inty in *.
  destruct (Z_le_gt_dec 0 v).
  - pose proof (Z.quot_pos v n ltac:(lia) ltac:(lia)).
    assert (Z.quot v n <= v); [|lia]. rewrite Z.quot_div_nonneg by lia.
    apply Z.div_le_upper_bound; [lia|]. rewrite <- (Z.mul_1_l v) at 1. apply Z.mul_le_mono_nonneg_r; lia.
  - assert (E : Z.quot v n = - Z.quot (- v) n) by (rewrite Z.quot_opp_l by lia; lia).
    pose proof (Z.quot_pos (- v) n ltac:(lia) ltac:(lia)).
    assert (Z.quot (- v) n <= - v); [|lia]. rewrite Z.quot_div_nonneg by lia.
    apply Z.div_le_upper_bound; [lia|]. rewrite <- (Z.mul_1_l (- v)) at 1. apply Z.mul_le_mono_nonneg_r; lia.
Qed.

Lemma histogramMap_ok t bs im : wf_img im -> typed_img t im -> 1 <= bs -> Z.of_nat (length (pixs im)) < 2 ^ 32 ->
  exists h, histogramMap t bs im = Some h /\ StronglySorted Z.lt (mkeys h) /\
    (forall k, In k (mkeys h) <-> exists v, In v (pixs im) /\ k = Z.quot v bs) /\
    forall k, mget 0 k h = Z.of_nat (length (filter (fun v => Z.quot v bs =? k) (pixs im))).
Proof.
  intros Hwf HT Hb HN. unfold histogramMap. rewrite Z.max_l by lia. rewrite wf_count by exact Hwf.
  unfold typed_img in HT. rewrite Forall_forall in HT.
  set (q := fun i => Z.quot (znth 0 (pixs im) i) bs).
  assert (Hin : forall i, 0 <= i < Z.of_nat (length (pixs im)) -> In (znth 0 (pixs im) i) (pixs im)).
  { intros i Hi. eapply rd_In. apply rd_znth. exact Hi. }
  destruct (fold_opt_inv (fun done h => msorted h /\ (forall k, In k (mkeys h) <-> In k (map q done)) /\
      forall k, mget 0 k h = Z.of_nat (length (filter (fun v => v =? k) (map q done))))
    (fun h i => option_bind (rd (pixs im) i) (fun v =>
      let k := wrap t (Z.quot v bs) in
      Some (mput k (wrap UINT32 (mget 0 k h + 1)) h))) (zseq (Z.of_nat (length (pixs im)))) []) as (h & E & H1 & H2 & H3).
  - split; [constructor|]. split; [reflexivity|reflexivity].
  - intros done a todo h E (H1 & H2 & H3).
    assert (Ha : 0 <= a < Z.of_nat (length (pixs im))) by (apply zseq_In; rewrite E; apply in_elt).
    rewrite (rd_znth 0) by exact Ha. cbn [option_bind]. rewrite wrap_id by (apply quot_inty; [apply HT; apply Hin; exact Ha|exact Hb]).
    fold (q a). eexists. split; [reflexivity|]. split; [apply msorted_mput; exact H1|]. split.
    + intros k. rewrite mkeys_mput, H2, map_app, in_app_iff. cbn. intuition.
    + intros k. unfold mget at 1. rewrite mfind_mput by exact H1. rewrite map_app, filter_app, app_length. cbn [map filter].
      assert (B : (length (filter (fun v => v =? q a)%Z (map q done)) < length (pixs im))%nat).
      { eapply Nat.le_lt_trans; [apply filter_length_le|]. rewrite map_length.
        apply (f_equal (@length Z)) in E. rewrite zseq_length, app_length in E. cbn [length] in E. lia. }
      destruct (Z.eqb_spec k (q a)) as [->|N].
      * rewrite Z.eqb_refl, H3, wrap_id by (unfold inty; cbn; lia). cbn [length]. lia.
      * replace (q a =? k) with false by lia. fold (mget 0 k h). rewrite H3. cbn [length]. lia.
  - assert (Eq : map q (zseq (Z.of_nat (length (pixs im)))) = map (fun v => Z.quot v bs) (pixs im))
      by (apply (map_pixels (fun v => Z.quot v bs))).
    rewrite Eq in *. exists h. split; [exact E|]. split; [exact H1|]. split.
    + intros k. rewrite H2, in_map_iff. split; intros (v & A & B); exists v; auto.
    + intros k. rewrite H3, filter_map_comm, map_length. reflexivity.
Qed.

(** * Measures of blobs *)
Lemma process_blob_fold {S} (proc : S -> list Z -> option S) (step : S -> Z -> option S) seqs im :
  (forall k, In k (run_pixels seqs) -> 0 <= k < Z.of_nat (length (pixs im))) ->
  Forall (fun r => 0 < snd r) seqs ->
  (forall s a n, 0 < n -> proc s (map (znth 0 (pixs im)) (zrange a n)) = fold_opt step (map (znth 0 (pixs im)) (zrange a n)) s) ->
  forall s0, process_blob proc s0 seqs im = fold_opt step (map (znth 0 (pixs im)) (run_pixels seqs)) s0.
Proof.
  intros HR HF HP. unfold process_blob. induction HF as [|[a n] l Hn HF IH]; intros s0; cbn [fold_opt run_pixels flat_map map]; [reflexivity|].
  cbn [fst snd] in *. fold (run_pixels l) in *. cbn [run_pixels flat_map fst snd] in HR. fold (run_pixels l) in HR.
  assert (A1 : 0 <= a < Z.of_nat (length (pixs im))) by (apply HR; apply in_or_app; left; apply zrange_In; lia).
  assert (A2 : 0 <= a + n - 1 < Z.of_nat (length (pixs im))) by (apply HR; apply in_or_app; left; apply zrange_In; lia).
  rewrite (subarray_ok 0) by lia. cbn [option_bind]. rewrite map_app, fold_opt_app, HP by exact Hn.
  destruct (fold_opt step _ s0); cbn [option_bind]; [|reflexivity]. apply IH. intros k Hk. apply HR. apply in_or_app. right. exact Hk.
Qed.

Lemma zone_eq im lab v : length (pixs lab) = length (pixs im) ->
  zone im lab v = map (znth 0 (pixs im)) (filter (fun k => znth 0 (pixs lab) k =? v) (zseq (Z.of_nat (length (pixs lab))))).
Proof.
  intros HL. unfold zone. rewrite combine_znth by congruence. rewrite filter_map_comm, map_map. cbn [fst snd].
  rewrite HL. reflexivity.
Qed.

Lemma process_blobs_ok {R} (measure : list (Z * Z) -> img -> option R) (spec : list Z -> R) (ok : list Z -> Prop) onz lab im :
  wf_img lab -> 0 < dw (sz lab) -> length (pixs lab) = length (pixs im) ->
  (forall seqs, (forall k, In k (run_pixels seqs) -> 0 <= k < Z.of_nat (length (pixs im))) -> Forall (fun r => 0 < snd r) seqs -> seqs <> [] ->
     ok (map (znth 0 (pixs im)) (run_pixels seqs)) -> measure seqs im = Some (spec (map (znth 0 (pixs im)) (run_pixels seqs)))) ->
  (forall v, In v (pixs lab) -> ok (zone im lab v)) ->
  exists b res, computeBlobs onz lab = Some b /\ process_blobs measure b im = Some res /\
    StronglySorted Z.lt (mkeys res) /\
    (forall v, In v (mkeys res) <-> label_kept onz v = true /\ In v (pixs lab)) /\
    (forall v, label_kept onz v = true -> In v (pixs lab) -> mfind v res = Some (spec (zone im lab v))).
Proof.
  intros Hwf Hw HL HM Hok. destruct (computeBlobs_ok onz lab Hwf Hw) as (b & Eb & S1 & S2 & S3). exists b.
  unfold process_blobs.
  destruct (fold_opt_inv (fun (done : blobs) res => msorted res /\ (forall v, In v (mkeys res) <-> In v (mkeys done)) /\
     (forall v, In v (mkeys done) -> mfind v res = Some (spec (zone im lab v))))
    (fun res (e : Z * list (Z * Z)) => option_bind (measure (snd e) im) (fun r => Some (mput (fst e) r res))) b []) as (res & E & H1 & H2 & H3).
  - split; [constructor|]. split; [reflexivity|intros v []].
  - intros done [v l] todo res E (H1 & H2 & H3). cbn [fst snd].
    assert (Fv : mfind v b = Some l) by (apply msorted_In; [exact S1|rewrite E; apply in_elt]).
    destruct (S3 v l Fv) as (O1 & O2 & O3).
    assert (Hv : In v (pixs lab)) by (apply S2; eapply mfind_key; exact Fv).
    assert (Ez : map (znth 0 (pixs im)) (run_pixels l) = zone im lab v) by (rewrite zone_eq, O1 by exact HL; reflexivity).
    rewrite HM.
    + cbn [option_bind]. rewrite Ez. eexists. split; [reflexivity|]. split; [apply msorted_mput; exact H1|]. split.
      * intros u. rewrite mkeys_mput, H2. unfold mkeys. rewrite map_app, in_app_iff. cbn. intuition.
      * intros u Hu. rewrite mfind_mput by exact H1. destruct (Z.eqb_spec u v) as [->|N]; [reflexivity|].
        apply H3. unfold mkeys in Hu. rewrite map_app, in_app_iff in Hu. cbn in Hu. intuition congruence.
    + intros k Hk. rewrite O1 in Hk. apply filter_In in Hk as [Hk _]. apply zseq_In in Hk. lia.
    + eapply Forall_impl; [|exact O3]. intros r [A _]. exact A.
    + exact O2.
    + rewrite Ez. apply Hok. exact Hv.
  - exists res. split; [exact Eb|]. split; [exact E|]. split; [exact H1|]. split.
    + intros v. rewrite H2. apply S2.
    + intros v K1 K2. apply H3. apply S2. split; assumption.
Qed.

Lemma blob_area_ok seqs im : (forall k, In k (run_pixels seqs) -> 0 <= k < Z.of_nat (length (pixs im))) -> Forall (fun r => 0 < snd r) seqs ->
  Z.of_nat (length (run_pixels seqs)) <= 2 ^ 53 ->
  blob_area seqs im = Some (Z.of_nat (length (run_pixels seqs))).
Proof.
  intros HR HF HB. unfold blob_area, process_blob.
  assert (K : forall s, 0 <= s -> s + Z.of_nat (length (run_pixels seqs)) <= 2 ^ 53 ->
     fold_opt (fun s0 r => option_bind (subarray (pixs im) (fst r) (snd r)) (fun l => dadd s0 (Z.of_nat (length l)))) seqs s
     = Some (s + Z.of_nat (length (run_pixels seqs)))).
  { clear HB. induction HF as [|[a n] l Hn HF IH]; intros s Hs HB; cbn [fold_opt]; [cbn; f_equal; lia|].
    cbn [fst snd] in *. cbn [run_pixels flat_map fst snd] in HR, HB |- *. fold (run_pixels l) in *.
    assert (A1 : 0 <= a < Z.of_nat (length (pixs im))) by (apply HR; apply in_or_app; left; apply zrange_In; lia).
    assert (A2 : 0 <= a + n - 1 < Z.of_nat (length (pixs im))) by (apply HR; apply in_or_app; left; apply zrange_In; lia).
    rewrite (subarray_ok 0) by lia. cbn [option_bind]. rewrite app_length, zrange_length in *. rewrite map_length, zrange_length.
    unfold dadd at 1. replace (_ <=? _) with true by lia. rewrite IH; [f_equal; lia| |lia|lia].
    intros k Hk. apply HR. apply in_or_app. right. exact Hk. }
  rewrite K by lia. reflexivity.
Qed.

Lemma blob_volume_ok seqs im : (forall k, In k (run_pixels seqs) -> 0 <= k < Z.of_nat (length (pixs im))) -> Forall (fun r => 0 < snd r) seqs ->
  Zsum (map Z.abs (map (znth 0 (pixs im)) (run_pixels seqs))) <= 2 ^ 53 ->
  blob_volume seqs im = Some (Zsum (map (znth 0 (pixs im)) (run_pixels seqs))).
Proof.
  intros HR HF HB. unfold blob_volume. rewrite (process_blob_fold _ dadd) by auto. rewrite fold_dadd by (cbn; lia). reflexivity.
Qed.

Lemma fold_range l : forall a b, fold_left (fun (s : Z * Z) v =>
      let mx := if v >? snd s then v else snd s in
      let mn := if v <? fst s then v else fst s in (mn, mx)) l (a, b) = (fmin l a, fmax l b).
Proof. induction l as [|v l IH]; intros a b; cbn [fold_left]; [reflexivity|]. cbn [fst snd]. rewrite IH. reflexivity. Qed.

Lemma blob_range_ok t seqs im : (forall k, In k (run_pixels seqs) -> 0 <= k < Z.of_nat (length (pixs im))) -> Forall (fun r => 0 < snd r) seqs ->
  blob_range t seqs im = Some (fmin (map (znth 0 (pixs im)) (run_pixels seqs)) (tmax t), fmax (map (znth 0 (pixs im)) (run_pixels seqs)) (tmin t)).
Proof.
  intros HR HF. unfold blob_range.
  set (step := fun (s : Z * Z) v => let mx := if v >? snd s then v else snd s in let mn := if v <? fst s then v else fst s in (mn, mx)).
  rewrite (process_blob_fold _ (fun s v => Some (step s v))); [|exact HR|exact HF|].
  - rewrite (fold_opt_total _ step) by reflexivity. f_equal. apply fold_range.
  - intros s a n _. rewrite (fold_opt_total _ step) by reflexivity. reflexivity.
Qed.

Lemma zone_length im lab v : length (pixs lab) = length (pixs im) ->
  length (zone im lab v) = count_occ Z.eq_dec (pixs lab) v.
Proof. intros HL. rewrite zone_eq, map_length by exact HL. apply count_positions. Qed.

Lemma blobs_area_ok onz lab im : wf_img lab -> 0 < dw (sz lab) ->
  length (pixs lab) = length (pixs im) -> Z.of_nat (length (pixs im)) <= 2 ^ 53 ->
  exists b res, computeBlobs onz lab = Some b /\ process_blobs blob_area b im = Some res /\
    StronglySorted Z.lt (mkeys res) /\
    (forall v, In v (mkeys res) <-> label_kept onz v = true /\ In v (pixs lab)) /\
    (forall v, label_kept onz v = true -> In v (pixs lab) ->
       mfind v res = Some (Z.of_nat (count_occ Z.eq_dec (pixs lab) v))).
Proof.
  intros Hwf Hw HL HB.
  destruct (process_blobs_ok blob_area (fun l => Z.of_nat (length l)) (fun l => Z.of_nat (length l) <= 2 ^ 53) onz lab im Hwf Hw HL)
    as (b & res & E1 & E2 & E3 & E4 & E5).
  - intros seqs HR HF _ Hok. rewrite map_length in *. apply blob_area_ok; assumption.
  - intros v Hv. rewrite zone_length by exact HL.
    pose proof (count_occ_bound Z.eq_dec v (pixs lab)). lia.
  - exists b, res. repeat split; auto; try (apply E4; assumption); intros. rewrite E5, zone_length by assumption. reflexivity.
Qed.

Lemma blobs_volume_ok onz lab im : wf_img lab -> 0 < dw (sz lab) ->
  length (pixs lab) = length (pixs im) ->
  (forall v, In v (pixs lab) -> Zsum (map Z.abs (zone im lab v)) <= 2 ^ 53) ->
  exists b res, computeBlobs onz lab = Some b /\ process_blobs blob_volume b im = Some res /\
    StronglySorted Z.lt (mkeys res) /\
    (forall v, In v (mkeys res) <-> label_kept onz v = true /\ In v (pixs lab)) /\
    (forall v, label_kept onz v = true -> In v (pixs lab) -> mfind v res = Some (Zsum (zone im lab v))).
Proof.
  intros Hwf Hw HL HB.
  apply (process_blobs_ok blob_volume Zsum (fun l => Zsum (map Z.abs l) <= 2 ^ 53)); auto.
  intros seqs HR HF _ Hok. apply blob_volume_ok; assumption.
Qed.

Lemma blobs_range_ok t onz lab im : wf_img lab -> 0 < dw (sz lab) ->
  length (pixs lab) = length (pixs im) -> typed_img t im ->
  exists b res, computeBlobs onz lab = Some b /\ process_blobs (blob_range t) b im = Some res /\
    StronglySorted Z.lt (mkeys res) /\
    (forall v, In v (mkeys res) <-> label_kept onz v = true /\ In v (pixs lab)) /\
    (forall v, label_kept onz v = true -> In v (pixs lab) ->
       exists lo hi, mfind v res = Some (lo, hi) /\ In lo (zone im lab v) /\ In hi (zone im lab v) /\
         forall u, In u (zone im lab v) -> lo <= u <= hi).
Proof.
  intros Hwf Hw HL HT.
  destruct (process_blobs_ok (blob_range t) (fun l => (fmin l (tmax t), fmax l (tmin t))) (fun _ => True) onz lab im Hwf Hw HL)
    as (b & res & E1 & E2 & E3 & E4 & E5).
  - intros seqs HR HF _ Hok. apply blob_range_ok; assumption.
  - auto.
  - exists b, res. split; [exact E1|]. split; [exact E2|]. split; [exact E3|]. split; [exact E4|].
    intros v K1 K2. do 2 eexists. split; [apply E5; assumption|].
    unfold typed_img in HT. rewrite Forall_forall in HT.
    assert (HZ : forall u, In u (zone im lab v) -> inty t u).
    { intros u Hu. apply HT. unfold zone in Hu. apply in_map_iff in Hu as ([x y] & <- & Hu). apply filter_In in Hu as [Hu _].
      apply in_combine_l in Hu. exact Hu. }
    assert (HN : exists u, In u (zone im lab v)).
    { pose proof (zone_length im lab v HL). apply (count_occ_In Z.eq_dec) in K2. destruct (zone im lab v) as [|u l]; [cbn in *; lia|].
      exists u. left. reflexivity. }
    destruct HN as [u0 Hu0]. pose proof (HZ u0 Hu0) as I0. unfold inty in I0.
    destruct (fmin_spec (zone im lab v) (tmax t)) as (A1 & A2 & A3).
    destruct (fmax_spec (zone im lab v) (tmin t)) as (B1 & B2 & B3).
    split; [|split].
    + destruct A1 as [A1|A1]; [|exact A1]. specialize (A3 u0 Hu0). replace (fmin (zone im lab v) (tmax t)) with u0 by lia. exact Hu0.
    + destruct B1 as [B1|B1]; [|exact B1]. specialize (B3 u0 Hu0). replace (fmax (zone im lab v) (tmin t)) with u0 by lia. exact Hu0.
    + intros u Hu. split; [apply A3|apply B3]; exact Hu.
Qed.
