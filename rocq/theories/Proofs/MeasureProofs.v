From Verif Require Export Proofs.MeasureFacts.

(** ** Area and volume *)
Lemma runs_total R : Forall (fun r : Z * Z => 0 < snd r) R ->
  Z.of_nat (length (flat_map (fun r => zrange (fst r) (snd r)) R)) = Zsum (map snd R).
Proof.
  induction 1 as [|[a n] R H HF IH]; [reflexivity|]. cbn [flat_map map fst snd] in *.
  rewrite app_length, Nat2Z.inj_add, IH, zrange_length, Zsum_cons. lia.
Qed.

Lemma filter_length_le {A} (p : A -> bool) l : (length (filter p l) <= length l)%nat.
Proof. induction l as [|a l IH]; cbn; [lia|]. destruct (p a); cbn; lia. Qed.

Lemma area_ok im : wf_img im -> Z.of_nat (length (pixs im)) <= 2 ^ 53 ->
  area im = Some (Z.of_nat (length (filter (fun v => negb (v =? 0)) (pixs im)))).
Proof.
  intros Hw HN. unfold area, process_image.
  destruct (runs_base_good (pixs im)) as [F G]. set (R := rev (runs_base (pixs im) 0 0 0 [])) in *.
  assert (Ht : Zsum (map snd R) = Z.of_nat (length (filter (fun v => negb (v =? 0)) (pixs im)))).
  { rewrite <- runs_total by (eapply Forall_impl; [|exact F]; cbn; intros; tauto).
    rewrite G. change (filter (fun v => negb (v =? 0)) (pixs im)) with (considered true im).
    rewrite considered_sel, map_length. reflexivity. }
  pose proof (filter_length_le (fun v => negb (v =? 0)) (pixs im)) as Hle. apply Nat2Z.inj_le in Hle.
  rewrite <- Ht in *. clear Ht G.
  assert (K : forall s, 0 <= s -> s + Zsum (map snd R) <= 2 ^ 53 ->
    fold_opt (fun s0 r => option_bind (subarray (pixs im) (fst r) (snd r)) (fun l => dadd s0 (Z.of_nat (length l)))) R s
    = Some (s + Zsum (map snd R))).
  { induction F as [|[a n] R' H F' IH]; intros s Hs Hb; cbn [fold_opt map] in *.
    - rewrite Z.add_0_r. reflexivity.
    - cbn [fst snd] in *.
      assert (Hpos : 0 <= Zsum (map snd R')).
      { apply Zsum_nonneg. clear - F'. induction F' as [|r R H F IH]; cbn [map]; constructor; [lia|auto]. }
      rewrite Zsum_cons in *.
      rewrite (subarray_ok 0) by lia. cbn [option_bind]. rewrite map_length, zrange_length.
      unfold dadd. replace (Z.abs _ <=? _) with true by lia.
      rewrite IH by lia. f_equal. lia. }
  rewrite K by lia. f_equal.
Qed.

Lemma fold_dadd l : forall s, Z.abs s + Zsum (map Z.abs l) <= 2 ^ 53 -> fold_opt dadd l s = Some (s + Zsum l).
Proof.
  induction l as [|a l IH]; intros s H; cbn [fold_opt map] in *; [f_equal; cbn; lia|].
  assert (0 <= Zsum (map Z.abs l)) by (apply Zsum_nonneg; apply Forall_forall; intros x Hx; apply in_map_iff in Hx as (y & <- & _); lia).
  rewrite Zsum_cons in *. unfold dadd at 1. replace (_ <=? _) with true by lia. rewrite IH by lia. f_equal. lia.
Qed.

Lemma volume_ok im : wf_img im -> Zsum (map Z.abs (pixs im)) <= 2 ^ 53 ->
  volume im = Some (Zsum (pixs im)).
Proof.
  intros Hw HB. unfold volume, process_image. rewrite wf_count by assumption.
  rewrite (subarray_ok 0) by lia. rewrite zrange_0_zseq, map_znth_zseq. cbn [option_bind].
  rewrite fold_dadd by (cbn; lia). f_equal.
Qed.

(** ** Extrema *)
Definition fmin (l : list Z) (m : Z) : Z := fold_left (fun m v => if v <? m then v else m) l m.
Definition fmax (l : list Z) (m : Z) : Z := fold_left (fun m v => if v >? m then v else m) l m.

Lemma fmin_spec l : forall m, (fmin l m = m \/ In (fmin l m) l) /\ fmin l m <= m /\ forall v, In v l -> fmin l m <= v.
Proof.
  induction l as [|a l IH]; intros m; cbn.
  - split; [auto|]. split; [lia|tauto].
  - destruct (IH (if a <? m then a else m)) as (H1 & H2 & H3). fold (fmin l (if a <? m then a else m)) in *.
    split; [|split].
    + destruct H1 as [->|H1]; [|auto]. destruct (a <? m); auto.
    + destruct (a <? m) eqn:E; lia.
    + intros v [->|Hv]; [|auto]. destruct (v <? m) eqn:E; lia.
Qed.

Lemma fmax_spec l : forall m, (fmax l m = m \/ In (fmax l m) l) /\ m <= fmax l m /\ forall v, In v l -> v <= fmax l m.
Proof.
  induction l as [|a l IH]; intros m; cbn.
  - split; [auto|]. split; [lia|tauto].
  - destruct (IH (if a >? m then a else m)) as (H1 & H2 & H3). fold (fmax l (if a >? m then a else m)) in *.
    split; [|split].
    + destruct H1 as [->|H1]; [|auto]. destruct (a >? m); auto.
    + destruct (a >? m) eqn:E; lia.
    + intros v [->|Hv]; [|auto]. destruct (v >? m) eqn:E; lia.
Qed.

Lemma considered_In b im v : In v (considered b im) -> In v (pixs im).
Proof. unfold considered. destruct b; [|auto]. rewrite filter_In. tauto. Qed.

Lemma fmin_In t b im : typed_img t im -> considered b im <> [] ->
  In (fmin (considered b im) (tmax t)) (considered b im).
Proof.
  intros HT HN. destruct (fmin_spec (considered b im) (tmax t)) as ([E|H] & _ & H3); [|exact H].
  rewrite E in *. destruct (considered b im) as [|v l] eqn:El; [congruence|].
  assert (Hv : In v (pixs im)) by (apply (considered_In b); rewrite El; left; reflexivity).
  unfold typed_img in HT. rewrite Forall_forall in HT. specialize (HT v Hv). specialize (H3 v (or_introl eq_refl)).
  unfold inty in HT. left. lia.
Qed.

Lemma fmax_In t b im : typed_img t im -> considered b im <> [] ->
  In (fmax (considered b im) (tmin t)) (considered b im).
Proof.
  intros HT HN. destruct (fmax_spec (considered b im) (tmin t)) as ([E|H] & _ & H3); [|exact H].
  rewrite E in *. destruct (considered b im) as [|v l] eqn:El; [congruence|].
  assert (Hv : In v (pixs im)) by (apply (considered_In b); rewrite El; left; reflexivity).
  unfold typed_img in HT. rewrite Forall_forall in HT. specialize (HT v Hv). specialize (H3 v (or_introl eq_refl)).
  unfold inty in HT. left. lia.
Qed.

Lemma minVal_eq t b im : wf_img im -> minVal t b im = Some (fmin (considered b im) (tmax t)).
Proof. intros. unfold minVal. rewrite process_image_fold by assumption. reflexivity. Qed.

Lemma maxVal_eq t b im : wf_img im -> maxVal t b im = Some (fmax (considered b im) (tmin t)).
Proof. intros. unfold maxVal. rewrite process_image_fold by assumption. reflexivity. Qed.

Lemma rangeVal_eq t b im : wf_img im ->
  rangeVal t b im = Some (fmin (considered b im) (tmax t), fmax (considered b im) (tmin t)).
Proof.
  intros. unfold rangeVal. rewrite process_image_fold by assumption. f_equal.
  generalize (tmax t) (tmin t). induction (considered b im) as [|v l IH]; intros a c; cbn; [reflexivity|].
  rewrite IH. reflexivity.
Qed.

Lemma minVal_ok t b im : wf_img im -> typed_img t im -> considered b im <> [] ->
  exists m, minVal t b im = Some m /\ In m (considered b im) /\ forall v, In v (considered b im) -> m <= v.
Proof.
  intros Hw HT HN. rewrite minVal_eq by assumption. eexists. split; [reflexivity|].
  split; [apply fmin_In; assumption|]. apply fmin_spec.
Qed.

Lemma maxVal_ok t b im : wf_img im -> typed_img t im -> considered b im <> [] ->
  exists m, maxVal t b im = Some m /\ In m (considered b im) /\ forall v, In v (considered b im) -> v <= m.
Proof.
  intros Hw HT HN. rewrite maxVal_eq by assumption. eexists. split; [reflexivity|].
  split; [apply fmax_In; assumption|]. apply fmax_spec.
Qed.

Lemma rangeVal_ok t b im : wf_img im -> typed_img t im -> considered b im <> [] ->
  exists lo hi, rangeVal t b im = Some (lo, hi) /\ In lo (considered b im) /\ In hi (considered b im) /\
    forall v, In v (considered b im) -> lo <= v <= hi.
Proof.
  intros Hw HT HN. rewrite rangeVal_eq by assumption. do 2 eexists. split; [reflexivity|].
  split; [apply fmin_In; assumption|]. split; [apply fmax_In; assumption|].
  intros v Hv. split; [apply fmin_spec|apply fmax_spec]; assumption.
Qed.

(** ** Extrema with position *)
Definition best_step (better : Z -> Z -> bool) (im : img) (s : posst) (k : Z) : posst :=
  let v := znth 0 (pixs im) k in
  if better v (fst s) then (v, (kx (sz im) k, ky (sz im) k, kz (sz im) k)) else s.

Lemma best_pos_eq better s0 b im : wf_img im -> 0 < dw (sz im) ->
  process_image_pos (fun s l x y z => Some (proc_best better s l x y z)) s0 b im
  = Some (fold_left (best_step better im) (sel b im) s0).
Proof.
  intros Hw H0.
  rewrite (process_image_pos_step _ (fun s k => Some (best_step better im s k))); auto.
  - apply fold_opt_total. reflexivity.
  - intros s a n y z Hy Hz Ha Hn Han _.
    rewrite (fold_opt_total _ (best_step better im)) by reflexivity. f_equal.
    revert a s Ha Han. pattern n. apply natlike_rect'; [| |exact Hn].
    + intros. rewrite !zrange_nil by lia. reflexivity.
    + intros k Hk IH a s Ha Han. rewrite zrange_cons by lia. cbn [map proc_best fold_left].
      replace (k + 1 - 1) with k by lia.
      replace (voxel_offset (dw (sz im)) (dh (sz im)) a y z + 1)
        with (voxel_offset (dw (sz im)) (dh (sz im)) (a + 1) y z) by (unfold voxel_offset; ring).
      rewrite IH by lia. f_equal. unfold best_step.
      destruct (k_coords (sz im) a y z) as (-> & -> & ->); [unfold inside; lia|]. reflexivity.
Qed.

(** The first offset in raster order with the best value ([sg] = 1: minimum, -1: maximum). *)
Lemma best_fold better sg im l s :
  (forall a b, better a b = (sg * a <? sg * b)) ->
  let v k := sg * znth 0 (pixs im) k in
  let r := fold_left (best_step better im) l s in
  (r = s /\ (forall k, In k l -> sg * fst s <= v k)) \/
  (exists l1 k l2, l = l1 ++ k :: l2 /\ r = (znth 0 (pixs im) k, (kx (sz im) k, ky (sz im) k, kz (sz im) k)) /\
     v k < sg * fst s /\
     (forall j, In j l1 -> v k < v j) /\ (forall j, In j l2 -> v k <= v j)).
Proof.
  intros Hb v r. unfold r.
  apply (fold_left_inv (fun l r => (r = s /\ (forall k, In k l -> sg * fst s <= v k)) \/
  (exists l1 k l2, l = l1 ++ k :: l2 /\ r = (znth 0 (pixs im) k, (kx (sz im) k, ky (sz im) k, kz (sz im) k)) /\
     v k < sg * fst s /\
     (forall j, In j l1 -> v k < v j) /\ (forall j, In j l2 -> v k <= v j)))).
  - left. split; [reflexivity|intros k []].
  - intros done a todo st _ [(-> & H)|(l1 & k & l2 & -> & -> & E3 & H1 & H2)]; unfold best_step; rewrite Hb; cbn [fst].
    + fold (v a). destruct (Z.ltb_spec (v a) (sg * fst s)).
      * right. exists done, a, []. repeat split; auto; [|intros j []]. intros j Hj. specialize (H j Hj). lia.
      * left. split; [reflexivity|]. intros k Hk. apply in_app_or in Hk as [Hk|[<-|[]]]; auto.
    + fold (v a) (v k). destruct (Z.ltb_spec (v a) (v k)).
      * right. exists (l1 ++ k :: l2), a, []. repeat split; auto; [lia| |intros j []].
        intros j Hj. apply in_app_or in Hj as [Hj|[<-|Hj]]; [|lia|]; [specialize (H1 j Hj)|specialize (H2 j Hj)]; lia.
      * right. exists l1, k, (l2 ++ [a]). rewrite <- app_assoc. repeat split; auto.
        intros j Hj. apply in_app_or in Hj as [Hj|[<-|[]]]; auto.
Qed.

Lemma zseq_sorted n : StronglySorted Z.lt (zseq n).
Proof.
  unfold zseq. generalize 0%nat. induction (Z.to_nat n) as [|m IH]; intros a; cbn; [constructor|].
  constructor; [apply IH|]. apply Forall_forall. intros x Hx. apply in_map_iff in Hx as (k & <- & Hk).
  apply in_seq in Hk. lia.
Qed.

Lemma filter_sorted p l : StronglySorted Z.lt l -> StronglySorted Z.lt (filter p l).
Proof.
  induction 1 as [|a l HS IH HF]; cbn; [constructor|]. destruct (p a); [|exact IH].
  constructor; [exact IH|]. rewrite Forall_forall in *. intros x Hx. apply filter_In in Hx. apply HF. tauto.
Qed.

Lemma sel_sorted b im : StronglySorted Z.lt (sel b im).
Proof. unfold sel. destruct b; [apply filter_sorted|]; apply zseq_sorted. Qed.

Lemma sel_In b im k : In k (sel b im) <->
  0 <= k < Z.of_nat (length (pixs im)) /\ (b = true -> znth 0 (pixs im) k <> 0).
Proof.
  unfold sel. destruct b; [rewrite filter_In|]; rewrite zseq_In; unfold nzb.
  - split; intros [H1 H2]; split; auto; [intros _|specialize (H2 eq_refl)]; lia.
  - split; [intros H; split; [exact H|discriminate]|tauto].
Qed.

Lemma sorted_split l1 k l2 : StronglySorted Z.lt (l1 ++ k :: l2) ->
  (forall j, In j l1 -> j < k) /\ (forall j, In j l2 -> k < j).
Proof.
  induction l1 as [|a l1 IH]; cbn; intros H; inversion H as [|? ? HS HF]; subst; rewrite Forall_forall in HF.
  - split; [tauto|exact HF].
  - destruct (IH HS) as [I1 I2]. split; [|exact I2]. intros j [<-|Hj]; [|auto]. apply HF. apply in_or_app. right; left; reflexivity.
Qed.

Lemma best_pos_ok better sg s0 b im : wf_img im -> 0 < dw (sz im) ->
  (forall a b, better a b = (sg * a <? sg * b)) ->
  (exists k, In k (sel b im) /\ sg * znth 0 (pixs im) k < sg * fst s0) ->
  exists k, In k (sel b im) /\
    process_image_pos (fun s l x y z => Some (proc_best better s l x y z)) s0 b im
      = Some (znth 0 (pixs im) k, (kx (sz im) k, ky (sz im) k, kz (sz im) k)) /\
    forall j, In j (sel b im) ->
      sg * znth 0 (pixs im) k <= sg * znth 0 (pixs im) j /\
      (sg * znth 0 (pixs im) j = sg * znth 0 (pixs im) k -> k <= j).
Proof.
  intros Hw H0 Hb (k0 & K1 & K2). rewrite best_pos_eq by assumption.
  destruct (best_fold better sg im (sel b im) s0 Hb) as [(E & H)|(l1 & k & l2 & E & R & H & H1 & H2)].
  - specialize (H k0 K1). lia.
  - exists k. rewrite R. pose proof (sel_sorted b im) as HS. rewrite E in *.
    destruct (sorted_split _ _ _ HS) as [S1 S2].
    split; [apply in_or_app; right; left; reflexivity|]. split; [reflexivity|].
    intros j Hj. apply in_app_or in Hj as [Hj|[<-|Hj]].
    + specialize (H1 j Hj). split; lia.
    + split; lia.
    + specialize (H2 j Hj). specialize (S2 j Hj). split; lia.
Qed.

Lemma pixel_is_k im k : wf_img im -> 0 <= k < Z.of_nat (length (pixs im)) ->
  pixel_is im (kx (sz im) k) (ky (sz im) k) (kz (sz im) k) (znth 0 (pixs im) k) /\
  voxel_offset (dw (sz im)) (dh (sz im)) (kx (sz im) k) (ky (sz im) k) (kz (sz im) k) = k.
Proof.
  intros [Hw HL] Hk. destruct (k_voxel (sz im) k Hw) as [H1 H2]; [lia|]. split; [|exact H2].
  split; [exact H1|]. rewrite H2. apply rd_znth. exact Hk.
Qed.

Lemma pixel_is_off im x y z v : pixel_is im x y z v ->
  let k := voxel_offset (dw (sz im)) (dh (sz im)) x y z in
  0 <= k < Z.of_nat (length (pixs im)) /\ znth 0 (pixs im) k = v.
Proof. intros [H1 H2] k. split; [eapply rd_Some_range; eauto|]. apply znth_rd. exact H2. Qed.

Lemma minVal_pt_ok t b im : wf_img im -> typed_img t im -> considered b im <> [] ->
  (b = true -> exists v, In v (considered b im) /\ v < tmax t) ->
  exists m x y z, minVal_pt t b im = Some (m, (x, y, z)) /\ pixel_is im x y z m /\ (b = true -> m <> 0) /\
    forall x' y' z' v', pixel_is im x' y' z' v' -> (b = true -> v' <> 0) ->
      m <= v' /\ (v' = m -> voxel_offset (dw (sz im)) (dh (sz im)) x y z <= voxel_offset (dw (sz im)) (dh (sz im)) x' y' z').
Proof.
  intros Hw HT HN Hlt.
  assert (Hlen : 0 < Z.of_nat (length (pixs im))).
  { destruct (pixs im) eqn:E; [|cbn [length]; lia]. exfalso. apply HN. unfold considered. rewrite E. destruct b; reflexivity. }
  assert (H0 : 0 < dw (sz im)) by (destruct Hw as [(W1 & W2 & W3) HL]; nia).
  unfold minVal_pt.
  assert (D : (exists k, In k (sel b im) /\ 1 * znth 0 (pixs im) k < 1 * tmax t) \/
              (b = false /\ forall k, In k (sel b im) -> znth 0 (pixs im) k = tmax t)).
  { destruct b.
    - destruct (Hlt eq_refl) as (v & V1 & V2). left. rewrite considered_sel in V1.
      apply in_map_iff in V1 as (k & <- & Hk). exists k. split; [exact Hk|lia].
    - destruct (existsb (fun k => znth 0 (pixs im) k <? tmax t) (sel false im)) eqn:E.
      + apply existsb_exists in E as (k & K1 & K2). left. exists k. split; [exact K1|lia].
      + right. split; [reflexivity|]. intros k Hk.
        assert (znth 0 (pixs im) k <? tmax t = false).
        { destruct (_ <? _) eqn:E2; [|reflexivity]. rewrite <- E. symmetry. apply existsb_exists. eauto. }
        apply sel_In in Hk as [Hk _]. unfold typed_img in HT. rewrite Forall_forall in HT.
        specialize (HT (znth 0 (pixs im) k)). assert (inty t (znth 0 (pixs im) k)).
        { apply HT. eapply rd_In. apply rd_znth. exact Hk. } unfold inty in *. lia. }
  destruct D as [D|[-> D]].
  - destruct (best_pos_ok Z.ltb 1 (tmax t, (0, 0, 0)) b im Hw H0) as (k & K1 & K2 & K3).
    + intros; f_equal; lia.
    + exact D.
    + apply sel_In in K1 as [K0 K1]. destruct (pixel_is_k im k Hw K0) as [P1 P2].
      do 4 eexists. split; [exact K2|]. split; [exact P1|]. split; [exact K1|].
      intros x' y' z' v' HP Hv'. apply pixel_is_off in HP as [Q1 Q2]. specialize (K3 (voxel_offset (dw (sz im)) (dh (sz im)) x' y' z')).
      rewrite sel_In in K3. rewrite Q2 in K3. rewrite P2. assert (L := K3 (conj Q1 Hv')). lia.
  - rewrite best_pos_eq by assumption.
    destruct (best_fold Z.ltb 1 im (sel false im) (tmax t, (0,0,0))) as [(E & H)|(l1 & k & l2 & E & R & H & _)].
    + intros; f_equal; lia.
    + rewrite E. exists (tmax t), 0, 0, 0.
      assert (I0 : In 0 (sel false im)) by (apply sel_In; split; [lia|discriminate]).
      split; [reflexivity|]. split; [|split; [discriminate|]].
      * destruct (pixel_is_k im 0 Hw) as [P1 P2]; [lia|]. rewrite D in P1 by exact I0.
        unfold kx, ky, kz in P1. rewrite Z.mod_0_l, !Z.div_0_l, Z.mod_0_l in P1; auto;
        destruct Hw as [(W1 & W2 & W3) HL]; nia.
      * intros x' y' z' v' HP _. pose proof HP as HP'. apply pixel_is_off in HP as [Q1 Q2].
        rewrite <- Q2, (D (voxel_offset (dw (sz im)) (dh (sz im)) x' y' z')) by (apply sel_In; split; [exact Q1|discriminate]).
        split; [lia|]. intros _. unfold voxel_offset at 1. lia.
    + exfalso. cbn [fst] in H. rewrite D in H; [lia|]. rewrite E. apply in_or_app; right; left; reflexivity.
Qed.

Lemma maxVal_pt_ok t b im : wf_img im -> typed_img t im -> considered b im <> [] ->
  (b = true -> exists v, In v (considered b im) /\ tmin t < v) ->
  exists m x y z, maxVal_pt t b im = Some (m, (x, y, z)) /\ pixel_is im x y z m /\ (b = true -> m <> 0) /\
    forall x' y' z' v', pixel_is im x' y' z' v' -> (b = true -> v' <> 0) ->
      v' <= m /\ (v' = m -> voxel_offset (dw (sz im)) (dh (sz im)) x y z <= voxel_offset (dw (sz im)) (dh (sz im)) x' y' z').
Proof.
  intros Hw HT HN Hlt.
  assert (Hlen : 0 < Z.of_nat (length (pixs im))).
  { destruct (pixs im) eqn:E; [|cbn [length]; lia]. exfalso. apply HN. unfold considered. rewrite E. destruct b; reflexivity. }
  assert (H0 : 0 < dw (sz im)) by (destruct Hw as [(W1 & W2 & W3) HL]; nia).
  unfold maxVal_pt.
  assert (D : (exists k, In k (sel b im) /\ -1 * znth 0 (pixs im) k < -1 * tmin t) \/
              (b = false /\ forall k, In k (sel b im) -> znth 0 (pixs im) k = tmin t)).
  { destruct b.
    - destruct (Hlt eq_refl) as (v & V1 & V2). left. rewrite considered_sel in V1.
      apply in_map_iff in V1 as (k & <- & Hk). exists k. split; [exact Hk|lia].
    - destruct (existsb (fun k => tmin t <? znth 0 (pixs im) k) (sel false im)) eqn:E.
      + apply existsb_exists in E as (k & K1 & K2). left. exists k. split; [exact K1|lia].
      + right. split; [reflexivity|]. intros k Hk.
        assert (tmin t <? znth 0 (pixs im) k = false).
        { destruct (_ <? _) eqn:E2; [|reflexivity]. rewrite <- E. symmetry. apply existsb_exists. eauto. }
        apply sel_In in Hk as [Hk _]. unfold typed_img in HT. rewrite Forall_forall in HT.
        specialize (HT (znth 0 (pixs im) k)). assert (inty t (znth 0 (pixs im) k)).
        { apply HT. eapply rd_In. apply rd_znth. exact Hk. } unfold inty in *. lia. }
  destruct D as [D|[-> D]].
  - destruct (best_pos_ok Z.gtb (-1) (tmin t, (0, 0, 0)) b im Hw H0) as (k & K1 & K2 & K3).
    + intros. lia.
    + exact D.
    + apply sel_In in K1 as [K0 K1]. destruct (pixel_is_k im k Hw K0) as [P1 P2].
      do 4 eexists. split; [exact K2|]. split; [exact P1|]. split; [exact K1|].
      intros x' y' z' v' HP Hv'. apply pixel_is_off in HP as [Q1 Q2]. specialize (K3 (voxel_offset (dw (sz im)) (dh (sz im)) x' y' z')).
      rewrite sel_In in K3. rewrite Q2 in K3. rewrite P2. assert (L := K3 (conj Q1 Hv')). lia.
  - rewrite best_pos_eq by assumption.
    destruct (best_fold Z.gtb (-1) im (sel false im) (tmin t, (0,0,0))) as [(E & H)|(l1 & k & l2 & E & R & H & _)].
    + intros. lia.
    + rewrite E. exists (tmin t), 0, 0, 0.
      assert (I0 : In 0 (sel false im)) by (apply sel_In; split; [lia|discriminate]).
      split; [reflexivity|]. split; [|split; [discriminate|]].
      * destruct (pixel_is_k im 0 Hw) as [P1 P2]; [lia|]. rewrite D in P1 by exact I0.
        unfold kx, ky, kz in P1. rewrite Z.mod_0_l, !Z.div_0_l, Z.mod_0_l in P1; auto;
        destruct Hw as [(W1 & W2 & W3) HL]; nia.
      * intros x' y' z' v' HP _. apply pixel_is_off in HP as [Q1 Q2].
        rewrite <- Q2, (D (voxel_offset (dw (sz im)) (dh (sz im)) x' y' z')) by (apply sel_In; split; [exact Q1|discriminate]).
        split; [lia|]. intros _. unfold voxel_offset at 1. lia.
    + exfalso. cbn [fst] in H. rewrite D in H; [lia|]. rewrite E. apply in_or_app; right; left; reflexivity.
Qed.

(** ** valueList, nonZeroOffsets *)
Lemma valueList_ok b im : wf_img im ->
  exists l, valueList b im = Some l /\ StronglySorted Z.lt l /\ forall v, In v l <-> In v (considered b im).
Proof.
  intros Hw. unfold valueList. rewrite process_image_fold by assumption. cbn [option_map].
  eexists. split; [reflexivity|].
  apply (fold_left_inv (fun done m => msorted m /\ forall v, In v (mkeys m) <-> In v done)).
  - split; [constructor|tauto].
  - intros done a todo m _ [HS HI]. split; [apply msorted_minsert; exact HS|].
    intros v. rewrite mkeys_minsert, HI, in_app_iff. cbn. intuition.
Qed.

Lemma nonZeroOffsets_ok im : wf_img im ->
  exists l, nonZeroOffsets im = Some l /\ StronglySorted Z.lt l /\
    forall k, In k l <-> exists v, rd (pixs im) k = Some v /\ v <> 0.
Proof.
  intros Hw. unfold nonZeroOffsets. rewrite wf_count by assumption.
  exists (sel true im). split; [|split; [apply sel_sorted|]].
  - set (N := Z.of_nat (length (pixs im))).
    destruct (fold_opt_inv (fun done acc => acc = filter (fun k => nzb (znth 0 (pixs im) k)) done)
      (fun acc i => option_bind (rd (pixs im) i) (fun v => Some (if v =? 0 then acc else acc ++ [i]))) (zseq N) [])
      as (r & E & ->); [reflexivity| |exact E].
    intros done a todo acc Hsp ->.
    assert (Ha : In a (zseq N)) by (rewrite Hsp; apply in_or_app; right; left; reflexivity).
    apply zseq_In in Ha. rewrite (rd_znth 0) by exact Ha. cbn [option_bind].
    eexists. split; [reflexivity|]. rewrite filter_app. cbn [filter].
    change (nzb (znth 0 (pixs im) a)) with (negb (znth 0 (pixs im) a =? 0)).
    destruct (znth 0 (pixs im) a =? 0); cbn; rewrite ?app_nil_r; reflexivity.
  - intros k. rewrite sel_In. split.
    + intros [H1 H2]. exists (znth 0 (pixs im) k). split; [apply rd_znth; exact H1|auto].
    + intros (v & Hv & Nv). split; [eapply rd_Some_range; eauto|]. intros _. rewrite (znth_rd 0 _ _ _ Hv). exact Nv.
Qed.

(** ** modeVal, medianVal *)
Definition cnt (l : list Z) (v : Z) : Z := Z.of_nat (count_occ Z.eq_dec l v).

Lemma cnt_snoc l a v : cnt (l ++ [a]) v = cnt l v + (if a =? v then 1 else 0).
Proof.
  unfold cnt. rewrite count_occ_app. cbn. destruct (Z.eq_dec a v) as [->|N].
  - rewrite Z.eqb_refl. lia.
  - destruct (Z.eqb_spec a v); [congruence|]. lia.
Qed.

Lemma cnt_nonneg l v : 0 <= cnt l v.
Proof. unfold cnt. lia. Qed.

Lemma cnt_pos l v : 0 < cnt l v <-> In v l.
Proof. unfold cnt. rewrite (count_occ_In Z.eq_dec). lia. Qed.

Lemma to_int_inj a b : 0 <= a < 2 ^ 32 -> 0 <= b < 2 ^ 32 -> to_int a = to_int b -> a = b.
Proof. unfold to_int. intros. lia. Qed.

Lemma to_int_small a : 0 <= a < 2 ^ 31 -> to_int a = a.
Proof. unfold to_int. intros. lia. Qed.

(** The counters held by the map after the pixels [done]. *)
Definition counts (done : list Z) (nb : zmap Z) : Prop :=
  msorted nb /\
  (forall v, 0 < v < 2 ^ 32 -> mfind (to_int v) nb = if cnt done v =? 0 then None else Some (cnt done v)) /\
  (forall k, In k (mkeys nb) -> exists v, 0 < v < 2 ^ 32 /\ In v done /\ k = to_int v).

Definition count_put (nb : zmap Z) (v : Z) : zmap Z :=
  match mfind (to_int v) nb with
  | None => minsert (to_int v) 1 nb
  | Some c => mput (to_int v) (c + 1) nb
  end.

Lemma count_put_eq done nb v : counts done nb -> 0 < v < 2 ^ 32 ->
  count_put nb v = mput (to_int v) (cnt done v + 1) nb.
Proof.
  intros (HS & HF & HK) Hv. unfold count_put, minsert. rewrite (HF v Hv).
  destruct (Z.eqb_spec (cnt done v) 0) as [E|N]; [|reflexivity]. rewrite E. reflexivity.
Qed.

Lemma counts_put done nb v : counts done nb -> 0 < v < 2 ^ 32 -> counts (done ++ [v]) (count_put nb v).
Proof.
  intros HC Hv. rewrite (count_put_eq done) by assumption. destruct HC as (HS & HF & HK). split; [|split].
  - apply msorted_mput. exact HS.
  - intros u Hu. rewrite mfind_mput by exact HS. rewrite cnt_snoc. pose proof (cnt_nonneg done u).
    destruct (Z.eqb_spec (to_int u) (to_int v)) as [E|N].
    + apply to_int_inj in E; [|lia|lia]. subst u. rewrite Z.eqb_refl. destruct (Z.eqb_spec (cnt done v + 1) 0); [lia|reflexivity].
    + destruct (Z.eqb_spec v u) as [->|]; [congruence|]. rewrite Z.add_0_r. apply HF. exact Hu.
  - intros k Hk. apply mkeys_mput in Hk as [->|Hk].
    + exists v. split; [exact Hv|]. split; [apply in_or_app; right; left; reflexivity|reflexivity].
    + destruct (HK k Hk) as (u & U1 & U2 & U3). exists u. split; [exact U1|]. split; [apply in_or_app; auto|exact U3].
Qed.

Lemma counts_skip done nb v : counts done nb -> v <= 0 -> counts (done ++ [v]) nb.
Proof.
  intros (HS & HF & HK) Hv. split; [exact HS|]. split.
  - intros u Hu. rewrite cnt_snoc. destruct (Z.eqb_spec v u); [lia|]. rewrite Z.add_0_r. apply HF. exact Hu.
  - intros k Hk. destruct (HK k Hk) as (u & U1 & U2 & U3). exists u. split; [exact U1|]. split; [apply in_or_app; auto|exact U3].
Qed.

Lemma mode_fold l : (forall v, In v l -> v < 2 ^ 32) ->
  let '(nb, maxNb, mode) := fold_left mode_step l ([], 0, 0) in
  (forall v, In v l -> 0 < v -> cnt l v <= maxNb) /\
  ((maxNb = 0 /\ mode = 0 /\ (forall v, In v l -> v <= 0)) \/ (0 < mode /\ In mode l /\ cnt l mode = maxNb)).
Proof.
  intros HB.
  assert (G : let '(nb, maxNb, mode) := fold_left mode_step l ([], 0, 0) in
    counts l nb /\ (forall v, In v l -> 0 < v -> cnt l v <= maxNb) /\
  ((maxNb = 0 /\ mode = 0 /\ (forall v, In v l -> v <= 0)) \/ (0 < mode /\ In mode l /\ cnt l mode = maxNb))).
  { apply (fold_left_inv (fun done (s : modest) => let '(nb, maxNb, mode) := s in
      counts done nb /\ (forall v, In v done -> 0 < v -> cnt done v <= maxNb) /\
  ((maxNb = 0 /\ mode = 0 /\ (forall v, In v done -> v <= 0)) \/ (0 < mode /\ In mode done /\ cnt done mode = maxNb)))).
    - split; [|split].
      + split; [constructor|]. split; [intros; reflexivity|intros k []].
      + intros v [].
      + left. split; [reflexivity|]. split; [reflexivity|intros v []].
    - intros done a todo [[nb maxNb] mode] E (HC & HM & HD).
      assert (Ha : a < 2 ^ 32) by (apply HB; rewrite E; apply in_or_app; right; left; reflexivity).
      unfold mode_step. destruct (Z.gtb_spec a 0) as [Hp|Hn].
      + pose proof (counts_put done nb a HC ltac:(lia)) as HC'. fold (count_put nb a).
        assert (EG : mget 0 (to_int a) (count_put nb a) = cnt done a + 1).
        { unfold mget. destruct HC' as (_ & HF & _). rewrite (HF a) by lia. rewrite cnt_snoc, Z.eqb_refl.
          pose proof (cnt_nonneg done a). destruct (Z.eqb_spec (cnt done a + 1) 0); [lia|reflexivity]. }
        rewrite EG. destruct (Z.gtb_spec (cnt done a + 1) maxNb) as [G1|G1].
        * split; [exact HC'|]. split.
          -- intros v Hv V0. rewrite cnt_snoc. destruct (Z.eqb_spec a v) as [->|Na]; [lia|].
             apply in_app_or in Hv as [Hv|[<-|[]]]; [|congruence]. specialize (HM v Hv V0). lia.
          -- right. split; [lia|]. split; [apply in_or_app; right; left; reflexivity|]. rewrite cnt_snoc, Z.eqb_refl. reflexivity.
        * split; [exact HC'|]. split.
          -- intros v Hv V0. rewrite cnt_snoc. destruct (Z.eqb_spec a v) as [->|Na]; [lia|].
             apply in_app_or in Hv as [Hv|[<-|[]]]; [|congruence]. specialize (HM v Hv V0). lia.
          -- destruct HD as [(-> & _)|(D1 & D2 & D3)]; [pose proof (cnt_nonneg done a); lia|].
             right. split; [exact D1|]. split; [apply in_or_app; auto|]. rewrite cnt_snoc.
             destruct (Z.eqb_spec a mode) as [->|]; lia.
      + split; [apply counts_skip; assumption|]. split.
        * intros v Hv V0. rewrite cnt_snoc. destruct (Z.eqb_spec a v); [lia|].
          apply in_app_or in Hv as [Hv|[<-|[]]]; [|lia]. specialize (HM v Hv V0). lia.
        * destruct HD as [(-> & -> & HD)|(D1 & D2 & D3)].
          -- left. split; [reflexivity|]. split; [reflexivity|]. intros v Hv. apply in_app_or in Hv as [Hv|[<-|[]]]; auto.
          -- right. split; [exact D1|]. split; [apply in_or_app; auto|]. rewrite cnt_snoc. destruct (Z.eqb_spec a mode); lia. }
  destruct (fold_left mode_step l ([], 0, 0)) as [[nb maxNb] mode]. tauto.
Qed.

Lemma tmax_32 t : tmax t < 2 ^ 32.
Proof. destruct t; cbn; lia. Qed.

Lemma snd_fold_mode b im : wf_img im -> considered b im <> [] ->
  modeVal b im = Some (Some (snd (fold_left mode_step (considered b im) ([], 0, 0)))).
Proof.
  intros Hw HN. unfold modeVal.
  set (step := fun (s : modest * option Z) k => let s' := mode_step (fst s) (znth 0 (pixs im) k) in (s', Some (snd s'))).
  assert (K : forall l s, l <> [] -> fold_left step l s =
     (fold_left mode_step (map (znth 0 (pixs im)) l) (fst s), Some (snd (fold_left mode_step (map (znth 0 (pixs im)) l) (fst s))))).
  { induction l as [|a l IH]; intros s Hne; [congruence|]. cbn [fold_left map]. destruct l as [|b0 l].
    - reflexivity.
    - rewrite IH by discriminate. reflexivity. }
  assert (NE : sel b im <> []) by (intros E; apply HN; rewrite considered_sel, E; reflexivity).
  rewrite (process_image_step _ (fun s k => Some (step s k))).
  - rewrite (fold_opt_total _ step) by reflexivity. rewrite K by assumption. cbn. rewrite <- considered_sel. reflexivity.
  - exact Hw.
  - intros s a n Ha Hn Han Hb Hb'. rewrite (fold_opt_total _ step) by reflexivity.
    assert (0 < n).
    { destruct b; [auto|]. rewrite Hb' by reflexivity. unfold considered in HN. destruct (pixs im); [congruence|]. cbn [length]. lia. }
    rewrite K; [reflexivity|]. intros E. apply (f_equal (@length Z)) in E. rewrite zrange_length in E. cbn in E. lia.
Qed.

Lemma modeVal_ok t b im : wf_img im -> typed_img t im ->
  (exists v, In v (considered b im) /\ 0 < v) ->
  exists m, modeVal b im = Some (Some m) /\ In m (considered b im) /\ 0 < m /\
    forall v, In v (considered b im) -> 0 < v ->
      (count_occ Z.eq_dec (considered b im) v <= count_occ Z.eq_dec (considered b im) m)%nat.
Proof.
  intros Hw HT (v0 & V1 & V2).
  rewrite snd_fold_mode; [|exact Hw|intros E; rewrite E in V1; exact V1].
  assert (HB : forall v, In v (considered b im) -> v < 2 ^ 32).
  { intros v Hv. apply considered_In in Hv. unfold typed_img in HT. rewrite Forall_forall in HT. specialize (HT v Hv).
    pose proof (tmax_32 t). unfold inty in HT. lia. }
  pose proof (mode_fold (considered b im) HB) as G.
  destruct (fold_left mode_step (considered b im) ([], 0, 0)) as [[nb maxNb] mode]. destruct G as (G1 & G2).
  destruct G2 as [(_ & _ & G2)|(D1 & D2 & D3)]; [specialize (G2 v0 V1); lia|].
  exists mode. split; [reflexivity|]. split; [exact D2|]. split; [exact D1|].
  intros v Hv V0. specialize (G1 v Hv V0). unfold cnt in *. lia.
Qed.

Lemma modeVal_none im : wf_img im -> considered true im = [] -> modeVal true im = Some None.
Proof.
  intros Hw HE. unfold modeVal, process_image.
  destruct (runs_base_good (pixs im)) as [F G].
  assert (E : rev (runs_base (pixs im) 0 0 0 []) = []).
  { destruct (rev (runs_base (pixs im) 0 0 0 [])) as [|[a n] R]; [reflexivity|exfalso].
    rewrite considered_sel in HE. apply map_eq_nil in HE. unfold sel in HE. rewrite HE in G.
    inversion F as [|? ? H _]; subst. cbn in H, G. apply app_eq_nil in G as [G _].
    apply (f_equal (@length Z)) in G. rewrite zrange_length in G. cbn in G. lia. }
  rewrite E. reflexivity.
Qed.

(** Sum of the counters of keys at most [m]. *)
Definition sum_le (m : Z) (nb : zmap Z) : Z :=
  Zsum (map (fun e => if fst e <=? m then snd e else 0) nb).

Lemma sum_le_mput m k c nb : msorted nb ->
  sum_le m (mput k c nb) = sum_le m nb + (if k <=? m then c - mget 0 k nb else 0).
Proof.
  unfold sum_le, mget. intros HS. induction nb as [|[k' c'] nb IH]; cbn [mput mfind map fst snd].
  - rewrite Zsum_cons. cbn. destruct (k <=? m); lia.
  - inversion HS as [|? ? HS' HF]; subst. rewrite Forall_forall in HF.
    destruct (Z.ltb_spec k k').
    + cbn [map fst snd]. rewrite !Zsum_cons. destruct (Z.eqb_spec k k'); [lia|].
      rewrite mfind_None_keys; [destruct (k <=? m); lia|]. intros Hin. specialize (HF _ Hin). cbn in HF. lia.
    + destruct (Z.eqb_spec k k') as [->|N]; cbn [map fst snd]; rewrite !Zsum_cons.
      * destruct (k' <=? m); lia.
      * rewrite IH by exact HS'. lia.
Qed.


Lemma median_fold l : (forall v, In v l -> v < 2 ^ 31) ->
  let s := fold_left median_step l ([], 0) in
  msorted (fst s) /\ snd s = pos_all l /\
  (forall m, sum_le m (fst s) = pos_le m l) /\
  (forall k c, In (k, c) (fst s) -> 0 < k /\ In k l /\ 0 < c).
Proof.
  intros HB.
  assert (G : let s := fold_left median_step l ([], 0) in counts l (fst s) /\ snd s = pos_all l /\
    (forall m, sum_le m (fst s) = pos_le m l)).
  { apply (fold_left_inv (fun done s => counts done (fst s) /\ snd s = pos_all done /\ (forall m, sum_le m (fst s) = pos_le m done))).
    - split; [|split; reflexivity]. split; [constructor|]. split; [reflexivity|intros k []].
    - intros done a todo [nb tot] E (HC & HT & HM). cbn [fst snd] in *.
      assert (Ha : a < 2 ^ 31) by (apply HB; rewrite E; apply in_or_app; right; left; reflexivity).
      unfold median_step, pos_all, pos_le in *. fold (count_put nb a).
      destruct (Z.gtb_spec a 0) as [Hp|Hn]; cbn [fst snd].
      + split; [apply counts_put; [exact HC|lia]|]. split.
        * rewrite filter_app, app_length. cbn [filter]. replace (0 <? a) with true by lia. cbn [length]. lia.
        * intros m. rewrite (count_put_eq done) by (auto; lia). destruct HC as (HS & HF & HK).
          assert (HFa := HF a). rewrite to_int_small in HFa by lia.
          rewrite sum_le_mput by exact HS. rewrite HM, to_int_small by lia. unfold mget.
          rewrite HFa by lia.
          rewrite filter_app, app_length. cbn [filter]. replace (0 <? a) with true by lia. cbn [andb].
          destruct (a <=? m); cbn [length]; destruct (Z.eqb_spec (cnt done a) 0); lia.
      + split; [apply counts_skip; assumption|]. split.
        * rewrite filter_app, app_length. cbn [filter]. replace (0 <? a) with false by lia. cbn [length]. lia.
        * intros m. rewrite filter_app, app_length. cbn [filter]. replace (0 <? a) with false by lia. cbn [andb length].
          rewrite HM. lia. }
  destruct G as ((HS & HF & HK) & G2 & G3). split; [exact HS|]. split; [exact G2|]. split; [exact G3|].
  intros k c Hin. assert (Hk : In k (mkeys (fst (fold_left median_step l ([], 0))))) by (apply (in_map fst) in Hin; exact Hin).
  destruct (HK k Hk) as (u & U1 & U2 & U3). pose proof (HB u U2). rewrite to_int_small in U3 by lia. subst u.
  split; [lia|]. split; [exact U2|].
  apply msorted_In in Hin; [|exact HS]. rewrite <- (to_int_small k) in Hin by lia. rewrite HF in Hin by lia.
  apply cnt_pos in U2. destruct (Z.eqb_spec (cnt l k) 0); [lia|]. injection Hin as <-. exact U2.
Qed.

Lemma sum_le_none m nb : (forall k, In k (mkeys nb) -> m < k) -> sum_le m nb = 0.
Proof.
  unfold sum_le. induction nb as [|[k c] nb IH]; intros H; [reflexivity|]. cbn [map fst snd]. rewrite Zsum_cons.
  rewrite IH by (intros; apply H; right; assumption). specialize (H k (or_introl eq_refl)).
  replace (k <=? m) with false by lia. reflexivity.
Qed.

Lemma sum_le_all m nb : (forall k, In k (mkeys nb) -> k <= m) -> sum_le m nb = Zsum (map snd nb).
Proof.
  unfold sum_le. induction nb as [|[k c] nb IH]; intros H; [reflexivity|]. cbn [map fst snd]. rewrite !Zsum_cons.
  rewrite IH by (intros; apply H; right; assumption). specialize (H k (or_introl eq_refl)).
  replace (k <=? m) with true by lia. reflexivity.
Qed.

Lemma sum_le_app m a b : sum_le m (a ++ b) = sum_le m a + sum_le m b.
Proof. unfold sum_le. rewrite map_app. apply Zsum_app. Qed.

Lemma median_scan_spec total rest : forall pre,
  msorted (pre ++ rest) -> (forall e, In e (pre ++ rest) -> 0 < snd e) ->
  2 * Zsum (map snd pre) <= total -> 
  let acc := Zsum (map snd pre) in
  let nb := pre ++ rest in
  (median_scan rest acc total = 0 /\ 2 * Zsum (map snd nb) <= total) \/
  (exists m, median_scan rest acc total = m /\ In m (mkeys nb) /\ 2 * sum_le m nb > total /\
     forall v, v < m -> 2 * sum_le v nb <= total).
Proof.
  induction rest as [|[k c] rest IH]; intros pre HS HP HA acc nb.
  - left. split; [reflexivity|]. unfold nb. rewrite app_nil_r. exact HA.
  - cbn [median_scan].
    assert (HSS : forall j, In j (mkeys pre) -> j < k).
    { unfold msorted, mkeys in HS. rewrite map_app in HS. cbn in HS. apply sorted_split in HS. tauto. }
    assert (HSR : forall j, In j (mkeys rest) -> k < j).
    { unfold msorted, mkeys in HS. rewrite map_app in HS. cbn in HS. apply sorted_split in HS. tauto. }
    assert (En : nb = (pre ++ [(k, c)]) ++ rest) by (unfold nb; rewrite <- app_assoc; reflexivity).
    assert (Ea : acc + c = Zsum (map snd (pre ++ [(k, c)]))).
    { rewrite map_app, Zsum_app. cbn. unfold acc. lia. }
    destruct (Z.gtb_spec (2 * (acc + c)) total) as [G|G].
    + right. exists k. split; [reflexivity|]. split; [|split].
      * unfold nb, mkeys. rewrite map_app. apply in_or_app. right. left. reflexivity.
      * rewrite En, sum_le_app, (sum_le_none k rest) by exact HSR. rewrite sum_le_all; [rewrite <- Ea; lia|].
        intros j Hj. unfold mkeys in Hj. rewrite map_app in Hj. apply in_app_or in Hj as [Hj|[<-|[]]]; [|cbn; lia].
        specialize (HSS j Hj). lia.
      * intros v Hv. unfold nb. rewrite sum_le_app.
        rewrite (sum_le_none v ((k, c) :: rest)) by (intros j [<-|Hj]; [cbn; lia|specialize (HSR j Hj); lia]).
        assert (sum_le v pre <= acc).
        { unfold acc, sum_le. assert (HPp : forall e, In e pre -> 0 < snd e) by (intros; apply HP; apply in_or_app; auto).
          clear - HPp. induction pre as [|[a b] pre IH]; [cbn; lia|]. cbn [map fst snd]. rewrite !Zsum_cons.
          assert (I := IH (fun e He => HPp e (or_intror He))). specialize (HPp (a, b) (or_introl eq_refl)). cbn in HPp.
          destruct (a <=? v); lia. }
        fold acc in HA. lia.
    + rewrite Ea, En. apply IH.
      * rewrite <- En. exact HS.
      * rewrite <- En. exact HP.
      * rewrite <- Ea. lia.
Qed.

Lemma medianVal_ok t b im : wf_img im -> typed_img t im -> (forall v, In v (pixs im) -> v < 2 ^ 31) ->
  exists m, medianVal t b im = Some m /\
    ((forall v, In v (pixs im) -> v <= 0) -> m = 0) /\
    ((exists v, In v (pixs im) /\ 0 < v) ->
       0 < m /\ In m (pixs im) /\ 2 * pos_le m (pixs im) > pos_all (pixs im) /\
       forall v, v < m -> 2 * pos_le v (pixs im) <= pos_all (pixs im)).
Proof.
  intros Hw HT HB. unfold medianVal. rewrite process_image_fold by assumption. cbn [option_map].
  set (l := considered b im).
  assert (HBl : forall v, In v l -> v < 2 ^ 31) by (intros v Hv; apply HB; eapply considered_In; exact Hv).
  destruct (median_fold l HBl) as (HS & H2 & H3 & H4). destruct (fold_left median_step l ([], 0)) as [nb tot]. cbn [fst snd] in *.
  assert (Ef : forall p, (forall v, p v = true -> v <> 0) -> filter p l = filter p (pixs im)).
  { intros p Hp. unfold l, considered. destruct b; [|reflexivity].
    clear - Hp. induction (pixs im) as [|a q IH]; [reflexivity|]. cbn [filter]. destruct (Z.eqb_spec a 0) as [->|N]; cbn [negb filter].
    - destruct (p 0) eqn:E; [specialize (Hp 0 E); congruence|exact IH].
    - rewrite IH. reflexivity. }
  assert (EA : pos_all l = pos_all (pixs im)) by (unfold pos_all; rewrite Ef; [reflexivity|intros; lia]).
  assert (EL : forall m, pos_le m l = pos_le m (pixs im)) by (intros; unfold pos_le; rewrite Ef; [reflexivity|intros; lia]).
  rewrite EA in H2. subst tot.
  assert (HPA : 0 <= pos_all (pixs im)) by (unfold pos_all; lia).
  destruct (median_scan_spec (pos_all (pixs im)) nb [] HS) as [(E & HL)|(m & E & Hm & Hgt & Hle)].
  { intros [k c] He. specialize (H4 k c He). cbn. tauto. }
  { cbn. lia. }
  - cbn [app] in HL. change (Zsum (map snd [])) with 0 in E. rewrite E.
    exists 0. split; [f_equal; destruct t; reflexivity|]. split; [reflexivity|]. intros (v & V1 & V2). exfalso.
    assert (HA : sum_le (2 ^ 31) nb = pos_all (pixs im)).
    { rewrite H3, EL. unfold pos_le, pos_all. do 2 f_equal. apply filter_ext_in. intros u Hu. specialize (HB u Hu). lia. }
    rewrite sum_le_all in HA.
    2: { intros k Hk. apply in_map_iff in Hk as ([k' c] & <- & Hk). specialize (H4 k' c Hk). cbn. destruct H4 as (_ & Hi & _). specialize (HBl k' Hi). lia. }
    assert (0 < pos_all (pixs im)).
    { unfold pos_all. destruct (filter (fun v => 0 <? v) (pixs im)) eqn:Ef0; [|cbn; lia].
      assert (Hin : In v (filter (fun v => 0 <? v) (pixs im))) by (apply filter_In; split; [exact V1|lia]).
      rewrite Ef0 in Hin. destruct Hin. }
    lia.
  - cbn [app] in *. change (Zsum (map snd [])) with 0 in E. rewrite E.
    apply in_map_iff in Hm as ([m' c] & Em & Hm). cbn in Em. subst m'. destruct (H4 m c Hm) as (M1 & M2 & M3).
    assert (Mi : In m (pixs im)) by (eapply considered_In; exact M2).
    unfold typed_img in HT. rewrite Forall_forall in HT.
    exists m. split; [f_equal; apply wrap_id; apply HT; exact Mi|]. split.
    + intros Hall. specialize (Hall m Mi). lia.
    + intros _. split; [exact M1|]. split; [exact Mi|]. rewrite <- EL, <- H3. split; [exact Hgt|].
      intros v Hv. rewrite <- EL, <- H3. apply Hle. exact Hv.
Qed.
