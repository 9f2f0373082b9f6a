(** Proofs about colour pixels, lines and images. *)
From Verif Require Export Proofs.LoopFacts Proofs.IntsFacts Spec.ColorSpec.
Local Open Scope Z_scope.

(** ** Pixels *)
Lemma no_channel_all fail (R : Z -> Z -> Prop) a b : (forall x y, fail x y = false <-> R x y) -> length a = length b ->
  no_channel fail a b = true <-> Forall2 R a b.
Proof.
  intros HR. revert b. induction a as [|x a IH]; intros [|y b] L; cbn in L; try discriminate; cbn.
  - split; auto.
  - specialize (IH b ltac:(congruence)). destruct (fail x y) eqn:E.
    + split; [discriminate|]. intros H. inversion H; subst. apply HR in H3. congruence.
    + rewrite IH. apply HR in E. split; [intros; constructor; auto|]. intros H; inversion H; auto.
Qed.
Lemma mc_eq_ok a b : length a = length b -> mc_eq a b = true <-> a = b.
Proof.
  intros L. unfold mc_eq. rewrite (no_channel_all _ eq); [|intros x y; rewrite negb_false_iff, Z.eqb_eq; reflexivity|exact L].
  split; [|intros ->; induction b; constructor; auto]. intros H. clear L. induction H; congruence.
Qed.
Lemma mc_le_ok a b : length a = length b -> mc_le a b = true <-> cle a b.
Proof. intros L. apply no_channel_all; [|exact L]. intros; lia. Qed.
Lemma mc_lt_ok a b : length a = length b -> mc_lt a b = true <-> clt a b.
Proof. intros L. apply no_channel_all; [|exact L]. intros; lia. Qed.
Lemma Forall2_flip_iff (R : Z -> Z -> Prop) a b : Forall2 R a b <-> Forall2 (fun x y => R y x) b a.
Proof. split; induction 1; constructor; auto. Qed.
Lemma mc_ge_ok a b : length a = length b -> mc_ge a b = true <-> cle b a.
Proof. intros L. unfold cle. rewrite Forall2_flip_iff. apply no_channel_all; [|exact L]. intros; lia. Qed.
Lemma mc_gt_ok a b : length a = length b -> mc_gt a b = true <-> clt b a.
Proof. intros L. unfold clt. rewrite Forall2_flip_iff. apply no_channel_all; [|exact L]. intros; lia. Qed.
Lemma mc_ne_ok a b : length a = length b -> mc_ne a b = true <-> Forall2 (fun x y => x <> y) a b.
Proof. intros L. apply no_channel_all; [|exact L]. intros x y. rewrite Z.eqb_neq. reflexivity. Qed.

Lemma cle_refl a : cle a a.
Proof. induction a; constructor; [lia|assumption]. Qed.
Lemma cle_trans a b c : cle a b -> cle b c -> cle a c.
Proof. intros H. revert c. induction H; intros c0 H1; inversion H1; subst; constructor; [lia|apply IHForall2; assumption]. Qed.
Lemma cle_anti a b : cle a b -> cle b a -> a = b.
Proof. intros H. induction H; intros H1; inversion H1; subst; [reflexivity|]. f_equal; [lia|apply IHForall2; assumption]. Qed.
Lemma clt_cle a b : clt a b -> cle a b.
Proof. induction 1; constructor; [lia|assumption]. Qed.
Lemma cle_length a b : cle a b -> length a = length b.
Proof. induction 1; cbn; congruence. Qed.
Lemma sup_of_cle a b : cle a b -> supremum a b b.
Proof. intros H. repeat split; auto using cle_refl. Qed.
Lemma supremum_comm a b m : supremum a b m -> supremum b a m.
Proof. intros (A & B & C). repeat split; auto. Qed.

Lemma mc_int_bounds lo hi c : c <> [] -> (forall v, In v c -> lo <= v <= hi) -> lo <= mc_int c <= hi.
Proof.
  intros N H.
  assert (S : lo * Z.of_nat (length c) <= fold_right Z.add 0 c <= hi * Z.of_nat (length c)).
  { clear N. induction c as [|v c IH]; [cbn; lia|]. specialize (IH (fun w Hw => H w (or_intror Hw))). specialize (H v (or_introl eq_refl)).
    cbn [length fold_right]. rewrite Nat2Z.inj_succ, !Z.mul_succ_r. lia. }
  assert (P : 0 < Z.of_nat (length c)) by (destruct c; [congruence|cbn; lia]).
  unfold mc_int. split.
  - rewrite <- (Z.quot_mul lo (Z.of_nat (length c))) at 1 by lia. apply Z.quot_le_mono; lia.
  - rewrite <- (Z.quot_mul hi (Z.of_nat (length c))) by lia. apply Z.quot_le_mono; lia.
Qed.
Lemma mc_bool_ok c : (forall v, In v c -> 0 <= v) -> mc_bool c = false <-> forall v, In v c -> v = 0.
Proof.
  intros H. unfold mc_bool.
  assert (S : 0 <= fold_right Z.add 0 c /\ (fold_right Z.add 0 c = 0 <-> forall v, In v c -> v = 0)).
  { induction c as [|v c IH]; [split; [cbn; lia|split; [intros _ v []|reflexivity]]|].
    destruct (IH (fun w Hw => H w (or_intror Hw))) as (P & Q). specialize (H v (or_introl eq_refl)). cbn [fold_right]. split; [lia|]. split.
    - intros E w [<-|Hw]; [lia|]. apply Q; [lia|exact Hw].
    - intros E. rewrite (E v (or_introl eq_refl)). rewrite (proj2 Q); [reflexivity|]. intros w Hw. apply E. right; exact Hw. }
  destruct S as (_ & S). rewrite <- S. destruct (Z.eqb_spec (fold_right Z.add 0 c) 0); cbn; split; congruence.
Qed.

(** ** Lines *)
Lemma u32_id z : 0 <= z < 2 ^ 32 -> u32 z = z.
Proof. intros H. apply Z.mod_small. exact H. Qed.
Lemma journey_app a b : journey (a ++ b) = journey a + journey b.
Proof. unfold journey. induction a as [|o a IH]; cbn; [reflexivity|]. rewrite IH. lia. Qed.
Lemma careful_pos os st : careful st os -> 0 <= journey os.
Proof.
  revert st. induction os as [|o os IH]; intros st H; [cbn; lia|].
  change (journey (o :: os)) with (travel o + journey os). destruct o; cbn in H; cbn [travel].
  - destruct H as (_ & D & H). apply IH in H. lia.
  - apply IH in H. lia.
  - apply IH in H. lia.
Qed.
Lemma walk_ok os : forall st base q P, careful st os -> (st = false -> q = 0) -> 0 <= base -> 0 <= q -> base + q + journey os < 2 ^ 32 ->
  exists base' q', fold_left run_cop os (CArr (map (fun p => p + base) P) q) = CArr (map (fun p => p + base') P) q' /\ 0 <= base' /\ 0 <= q' /\ base' + q' = base + q + journey os.
Proof.
  induction os as [|o os IH]; intros st base q P C Q B Hq L; cbn [fold_left].
  - exists base, q. repeat split; auto. cbn. lia.
  - change (journey (o :: os)) with (travel o + journey os) in *. destruct o; cbn in C; cbn [travel] in *; cbn [run_cop].
    + destruct C as (-> & D & C). rewrite (Q eq_refl) in *. pose proof (careful_pos _ _ C). unfold carr_plus, carr_at. cbn [cidx ptrs]. rewrite map_map, u32_id by lia.
      destruct (IH false (base + dp) 0 P C) as (b' & q' & E & H1 & H2 & H3); [auto|lia|lia|lia|].
      exists b', q'. split; [|repeat split; lia]. rewrite <- E. do 2 f_equal. apply map_ext. intros; lia.
    + pose proof (careful_pos _ _ C). unfold carr_incr. cbn [cidx ptrs]. rewrite u32_id by lia.
      destruct (IH true base (q + 1) P C) as (b' & q' & E & H1 & H2 & H3); [discriminate|lia|lia|lia|].
      exists b', q'. split; [exact E|repeat split; lia].
    + pose proof (careful_pos _ _ C). unfold carr_copy. cbn [cidx ptrs]. rewrite map_map.
      destruct (IH false (base + q) 0 P C) as (b' & q' & E & H1 & H2 & H3); [auto|lia|lia|lia|].
      exists b', q'. split; [|repeat split; lia]. rewrite <- E. do 2 f_equal. apply map_ext. intros; lia.
Qed.

Lemma assign_read (mem : list (list Z)) : forall refs c mem', length c = length mem -> length refs = length mem ->
  all_some (map2 (fun m rc => wr m (fst rc) (snd rc)) mem (map2 pair refs c)) = Some mem' ->
  all_some (map2 rd mem' refs) = Some c /\ map (@length Z) mem' = map (@length Z) mem /\
  forall refs', Forall2 (fun r r' => r <> r') refs refs' -> all_some (map2 rd mem' refs') = all_some (map2 rd mem refs').
Proof.
  induction mem as [|m mem IH]; intros [|r refs] [|v c] mem' Lc Lr E; cbn in Lc, Lr; try discriminate.
  - cbn in E. injection E as <-. repeat split.
  - cbn in E. destruct (wr m r v) as [m'|] eqn:W; [|discriminate].
    destruct (all_some (map2 _ mem (map2 pair refs c))) as [rest|] eqn:E2; [|discriminate]. injection E as <-.
    destruct (IH refs c rest ltac:(congruence) ltac:(congruence) E2) as (A & B & D). cbn.
    rewrite (rd_wr _ _ _ _ r W), Z.eqb_refl, A. split; [reflexivity|]. split.
    + f_equal; [apply (wr_length _ _ _ _ W)|exact B].
    + intros [|r' refs'] F; inversion F; subst. cbn. rewrite (rd_wr _ _ _ _ r' W). destruct (Z.eqb_spec r r'); [contradiction|]. rewrite (D refs') by assumption. reflexivity.
Qed.
Lemma assign_total (mem : list (list Z)) : forall refs c, length c = length mem -> Forall2 (fun m r => 0 <= r < Z.of_nat (length m)) mem refs ->
  exists mem', all_some (map2 (fun m rc => wr m (fst rc) (snd rc)) mem (map2 pair refs c)) = Some mem'.
Proof.
  induction mem as [|m mem IH]; intros refs c L F; inversion F; subst; destruct c as [|v c]; cbn in L; try discriminate; cbn; [eauto|].
  destruct (wr_Some m y v H1) as (m' & ->). destruct (IH l' c ltac:(congruence) H3) as (rest & ->). eauto.
Qed.

(** ** Channels *)
Lemma copy_line_ok t src a n dst b : 0 <= n -> 0 <= a -> a + n <= Z.of_nat (length src) -> 0 <= b -> b + n <= Z.of_nat (length dst) ->
  exists dst', copy_line t src a n dst b = Some dst' /\ length dst' = length dst /\
    (forall i v, 0 <= i < n -> rd src (a + i) = Some v -> rd dst' (b + i) = Some (wrap t v)) /\
    (forall j, ~ (b <= j < b + n) -> rd dst' j = rd dst j).
Proof.
  intros Hn Ha La Hb Lb. unfold copy_line.
  destruct (scatter_ok (fun i => option_map (fun v => (b + i, wrap t v)) (rd src (a + i))) (fun i => b + i) (fun i => wrap t (znth 0 src (a + i))) (zseq n) dst) as (d & E & L & V & O).
  - intros i Hi. apply zseq_In in Hi. rewrite (rd_znth 0) by lia. split; [reflexivity|lia].
  - intros i j _ _ Eq. replace j with i by lia. reflexivity.
  - exists d. split; [exact E|]. split; [exact L|]. split.
    + intros i v Hi Hv. rewrite V by (apply zseq_In; lia). unfold znth. rewrite Hv. reflexivity.
    + intros j Hj. apply O. intros i Hi. apply zseq_In in Hi. lia.
Qed.

Lemma chan_rd n im k c : wf_cimg n im -> rd (chans im) k = Some c -> wf_img (Img (csz im) c).
Proof. intros (_ & _ & W) H. apply W. apply (rd_In _ _ _ H). Qed.
Lemma same_dims_ok a b : same_dims a b = true <-> a = b.
Proof.
  unfold same_dims. rewrite !andb_true_iff, !Z.eqb_eq. destruct a, b; cbn. split; [intros ((-> & ->) & ->); reflexivity|intros [= -> -> ->]; auto].
Qed.
Lemma wf_count s px : wf_img (Img s px) -> Z.of_nat (length px) = pixelCount s /\ 0 <= pixelCount s.
Proof. intros (_ & L). cbn in L. rewrite pixelCount_dims. lia. Qed.

Lemma copyChannel_ok t n im chan out : wf_cimg n im -> wf_img out -> csz im = sz out -> 0 <= chan < Z.of_nat n ->
  exists out', copyChannel t im chan out = Some (1, out') /\ wf_img out' /\ sz out' = sz out /\
    forall x y z v, chan_is im chan x y z v -> pixel_is out' x y z (wrap t v).
Proof.
  intros W Wo Es Hc. pose proof W as (Ln & _). unfold copyChannel. rewrite Ln. replace (chan <? Z.of_nat n) with true by lia. cbn [negb].
  rewrite (proj2 (same_dims_ok _ _) Es). cbn [negb]. destruct (rd_in_range (chans im) chan ltac:(lia)) as (c & Ec). rewrite Ec. cbn [option_bind].
  destruct (wf_count _ _ (chan_rd _ _ _ _ W Ec)) as (Lc & P). pose proof Wo as (Wd & Lo). rewrite <- pixelCount_dims in Lo.
  destruct (copy_line_ok t c 0 (pixelCount (csz im)) (pixs out) 0) as (d & E & L & V & _); try lia; [rewrite Es in *; lia|].
  rewrite E. cbn [option_bind]. eexists. split; [reflexivity|]. split; [split; [exact Wd|cbn [pixs sz]; rewrite L; apply (proj2 Wo)]|]. split; [reflexivity|].
  intros x y z v (c' & Hc' & Hin & Hv). unfold channel in Hc'. rewrite Ec in Hc'. injection Hc' as <-. cbn [sz pixs] in *.
  split; cbn [sz pixs]; rewrite <- Es; [exact Hin|]. replace (voxel_offset _ _ x y z) with (0 + voxel_offset (dw (csz im)) (dh (csz im)) x y z) by lia.
  apply V; [|exact Hv]. rewrite pixelCount_dims. apply inside_range. exact Hin.
Qed.

Lemma copyToChannel_ok t n im chan out : wf_img im -> wf_cimg n out -> sz im = csz out -> 0 <= chan < Z.of_nat n ->
  exists out', copyToChannel t im chan out = Some (1, out') /\ wf_cimg n out' /\ csz out' = csz out /\
    (forall x y z v, pixel_is im x y z v -> chan_is out' chan x y z (wrap t v)) /\
    (forall k, k <> chan -> channel out' k = channel out k).
Proof.
  intros Wi W Es Hc. pose proof W as (Ln & Wd & Wc). unfold copyToChannel. rewrite Ln. replace (chan <? Z.of_nat n) with true by lia. cbn [negb].
  rewrite (proj2 (same_dims_ok _ _) Es). cbn [negb]. destruct (rd_in_range (chans out) chan ltac:(lia)) as (c & Ec). rewrite Ec. cbn [option_bind].
  destruct (wf_count _ _ (chan_rd _ _ _ _ W Ec)) as (Lc & P). pose proof (proj2 Wi) as Li. rewrite <- pixelCount_dims in Li.
  destruct (copy_line_ok t (pixs im) 0 (pixelCount (sz im)) c 0) as (d & E & L & V & _); try lia; [rewrite Es in *; lia|].
  rewrite E. cbn [option_bind]. destruct (wr_Some (chans out) chan d ltac:(lia)) as (cs & Ew). rewrite Ew. cbn [option_bind].
  eexists. split; [reflexivity|]. repeat split; cbn [csz chans]; try apply Wd.
  - rewrite (wr_length _ _ _ _ Ew). exact Ln.
  - cbn in H |- *. apply In_rd in H as (k & _ & Hk). rewrite (rd_wr _ _ _ _ k Ew) in Hk. destruct (chan =? k).
    + injection Hk as <-. rewrite L. apply (chan_rd _ _ _ _ W Ec).
    + apply (chan_rd _ _ _ _ W Hk).
  - intros x y z v (Hin & Hv). exists (Img (csz out) d). unfold channel. cbn [csz chans]. rewrite (rd_wr _ _ _ _ chan Ew), Z.eqb_refl. split; [reflexivity|].
    split; cbn [sz pixs]; rewrite <- Es; [exact Hin|]. replace (voxel_offset _ _ x y z) with (0 + voxel_offset (dw (sz im)) (dh (sz im)) x y z) by lia.
    apply V; [|exact Hv]. rewrite pixelCount_dims. apply inside_range. exact Hin.
  - intros k Hk. unfold channel. cbn [csz chans]. rewrite (rd_wr _ _ _ _ k Ew). destruct (Z.eqb_spec chan k); [congruence|reflexivity].
Qed.
