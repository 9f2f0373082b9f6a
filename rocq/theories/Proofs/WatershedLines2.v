(** Watershed lines, in terms of pixels. *)
From Verif Require Export Proofs.WatershedLines Proofs.GeodesicFilters.

Lemma covers_sym se s : symmetric_se se -> planar se s -> forall a b, covers se s a b -> covers se s b a.
Proof.
  intros Hy HP a b (x & y & z & x' & y' & z' & I & I' & -> & -> & H). exists x', y', z', x, y, z. repeat (split; [assumption || reflexivity|]). apply (sees_sym se s); assumption.
Qed.

(** The queue at the start holds the offsets of the markers. *)
Lemma start_count t px m r : (forall v p, In (v, p) r <-> 0 <= p < Z.of_nat (length m) /\ v = znth 0 px p /\ znth 0 m p <> 0) -> NoDup (map snd r) ->
  t = UINT8 \/ t = UINT16 -> (length r + count (STAT_CANDIDATE t) (map (fun l => px_test l STAT_LABELED (STAT_CANDIDATE t)) m) <= length m)%nat.
Proof.
  intros R ND Ht. pose proof (stats_distinct t Ht) as D. set (ws := map _ m). assert (Lw : length ws = length m) by (unfold ws; apply map_length).
  assert (Hc : forall l : list Z, (length (filter (fun v : Z => negb (v =? STAT_CANDIDATE t)%Z) l) + count (STAT_CANDIDATE t) l = length l)%nat).
  { clear. intros l. unfold count. induction l as [|a l IH]; cbn; [reflexivity|]. destruct (a =? STAT_CANDIDATE t); cbn; lia. }
  rewrite <- Lw at 1. rewrite <- (Hc ws). apply Nat.add_le_mono_r.
  replace (filter (fun v => negb (v =? STAT_CANDIDATE t)) ws) with (map (znth 0 ws) (filter (fun i => negb (znth 0 ws i =? STAT_CANDIDATE t)) (zseq (Z.of_nat (length ws))))).
  - rewrite map_length, <- (map_length snd r). apply NoDup_incl_length; [exact ND|]. intros p Hin. apply in_map_iff in Hin as ((v, p') & Ep & Hin). cbn in Ep. subst p'.
    apply R in Hin as (A & _ & C). apply filter_In. split; [apply zseq_In; lia|]. unfold ws. rewrite (znth_rd 0 _ _ (px_test (znth 0 m p) STAT_LABELED (STAT_CANDIDATE t))) by (rewrite rd_map, (rd_znth 0) by exact A; reflexivity).
    unfold px_test, nz. replace (znth 0 m p =? 0) with false by lia. cbn [negb]. replace (STAT_LABELED =? STAT_CANDIDATE t) with false by lia. reflexivity.
  - rewrite <- (filter_map_comm (fun v => negb (v =? STAT_CANDIDATE t)) (znth 0 ws)), map_znth_zseq. reflexivity.
Qed.

Theorem watershed_correct fuel t t2 se im markers out bas : flood_ok t t2 se im markers -> sz out = sz im -> sz bas = sz im -> symmetric_se se -> distinct_points se -> (length (pixs im) <= fuel)%nat ->
  exists lines basins, watershed fuel t se im markers out bas = Some (Some (1, (lines, basins))) /\ watershed_ok t se im markers lines basins.
Proof.
  intros (Ht & Wi & Wm & Sm & Ti & Tm & Hs & Hw & Hp & HP) So Sb Hy Hd Hf. unfold watershed. rewrite !same_size_true by congruence. cbn [andb negb].
  pose proof (stats_distinct t Ht) as D. pose proof Wi as (Wd & Li). pose proof Wm as (_ & Lm). rewrite Sm in Lm. pose proof Hs as (_ & _ & _ & Hbig).
  destruct (flood_init_ok t (pixs im) (pixs markers) Ht Ti ltac:(lia) ltac:(lia)) as (q & r & Eq & Q & ND & Lr & R). rewrite Eq. cbn [option_bind].
  set (m := pixs markers) in *. set (ws0 := map (fun l => px_test l STAT_LABELED (STAT_CANDIDATE t)) m).
  assert (Lw : Z.of_nat (length ws0) = dw (sz im) * dh (sz im) * dd (sz im)) by (unfold ws0; rewrite map_length; exact Lm).
  assert (W0 : forall p, 0 <= p < dw (sz im) * dh (sz im) * dd (sz im) -> znth 0 ws0 p = if znth 0 m p =? 0 then STAT_CANDIDATE t else STAT_LABELED).
  { intros p Hp'. unfold ws0. rewrite (znth_rd 0 _ _ (px_test (znth 0 m p) STAT_LABELED (STAT_CANDIDATE t))) by (rewrite rd_map, (rd_znth 0) by lia; reflexivity). unfold px_test, nz. destruct (znth 0 m p =? 0); reflexivity. }
  assert (Qd : forall p, queued r p <-> 0 <= p < dw (sz im) * dh (sz im) * dd (sz im) /\ znth 0 m p <> 0).
  { intros p. unfold queued. rewrite in_map_iff. split; [intros ((v, p') & Ep & Hin); cbn in Ep; subst p'; apply R in Hin; rewrite Lm in Hin; tauto|]. intros (A & B). exists (znth 0 (pixs im) p, p). split; [reflexivity|]. apply R. rewrite Lm. auto. }
  assert (Nn : forall p, 0 <= p < dw (sz im) * dh (sz im) * dd (sz im) -> 0 <= znth 0 (pixs im) p).
  { intros p Hp'. pose proof (typed_at t (pixs im) p Ti ltac:(lia)) as I. unfold inty in I. destruct (u816 _ Ht) as (A & _). lia. }
  assert (IV : winv t se (sz im) (pixs im) m (-1) m ws0 q r).
  { constructor; auto.
    - intros p Hq. apply Qd in Hq. apply Hq.
    - intros p _ Hq. apply Qd in Hq. apply Hq.
    - intros v p Hi. apply R in Hi. apply Hi.
    - intros p Hp'. unfold status. rewrite W0 by exact Hp'. destruct (Z.eqb_spec (znth 0 m p) 0) as [E|E]; [right; right; left|left; auto].
      split; [reflexivity|]. split; [exact E|]. split; [intros Hq; apply Qd in Hq; tauto|]. intros o Co Lo. destruct (covers_range _ _ _ _ Co) as (Ho & _). apply Qd. split; [exact Ho|]. rewrite W0 in Lo by exact Ho. destruct (Z.eqb_spec (znth 0 m o) 0); [lia|assumption].
    - intros p o Hl Hn Co. destruct (covers_range _ _ _ _ Co) as (_ & Hp'). exfalso. apply Hn. apply Qd. split; [exact Hp'|]. rewrite W0 in Hl by exact Hp'. destruct (Z.eqb_spec (znth 0 m p) 0); [lia|assumption].
    - intros p Hp' Hm. constructor; auto.
    - intros p B. exfalso. induction B as [p Hp' Hm Hv|p nb B IHB _ Cv Hv]; [pose proof (Nn p Hp'); lia|exact IHB].
    - intros p Hp' Hl Hq. exfalso. apply Hq. apply Qd. split; [exact Hp'|]. rewrite W0 in Hl by exact Hp'. destruct (Z.eqb_spec (znth 0 m p) 0); [lia|assumption]. }
  pose proof (start_count t (pixs im) m r R ND Ht) as Ct. fold ws0 in Ct.
  destruct (ws_loop_ok t se (sz im) (pixs im) m Ht Hs Hp HP Hd (covers_sym se (sz im) Hy HP) ltac:(lia) Ti fuel _ _ _ _ _ IV ltac:(lia) ltac:(lia)) as (h & lbl & ws & q' & El & [L1 L2 _ _ _ _ _ St Sep Mk Pa _ Lev]).
  rewrite El. cbn [fuel_bind ws_lbl ws_px]. set (ln := map _ ws). exists (Img (sz im) ln), (Img (sz im) lbl). split; [reflexivity|].
  assert (Wo : wf_img (Img (sz im) lbl)) by (split; [exact Wd|exact L1]). assert (Wl : wf_img (Img (sz im) ln)) by (split; [exact Wd|unfold ln; cbn; rewrite map_length; exact L2]).
  assert (Nq : forall p, ~ queued [] p) by (intros p []).
  assert (Ln : forall p, 0 <= p < dw (sz im) * dh (sz im) * dd (sz im) -> znth 0 ln p = if znth 0 ws p >=? STAT_CANDIDATE t then STAT_WS_LINE t else 0).
  { intros p Hp'. apply znth_rd. unfold ln. rewrite rd_map, (rd_znth 0) by lia. reflexivity. }
  assert (Vl : forall x y z w, pixel_is (Img (sz im) ln) x y z w -> let p := voxel_offset (dw (sz im)) (dh (sz im)) x y z in inside (sz im) x y z /\ 0 <= p < dw (sz im) * dh (sz im) * dd (sz im) /\ w = if znth 0 ws p >=? STAT_CANDIDATE t then STAT_WS_LINE t else 0).
  { intros x y z w P p. destruct (px_val (sz im) (Img (sz im) ln) _ _ _ _ eq_refl P) as (I & Rg & E). cbn [pixs] in E. rewrite Ln in E by exact Rg. auto. }
  assert (Vb : forall x y z l, pixel_is (Img (sz im) lbl) x y z l -> let p := voxel_offset (dw (sz im)) (dh (sz im)) x y z in inside (sz im) x y z /\ 0 <= p < dw (sz im) * dh (sz im) * dd (sz im) /\ l = znth 0 lbl p).
  { intros x y z l P p. destruct (px_val (sz im) (Img (sz im) lbl) _ _ _ _ eq_refl P) as (I & Rg & E). auto. }
  assert (Zero : forall x y z, pixel_is (Img (sz im) ln) x y z 0 -> znth 0 ws (voxel_offset (dw (sz im)) (dh (sz im)) x y z) = STAT_LABELED /\ znth 0 lbl (voxel_offset (dw (sz im)) (dh (sz im)) x y z) <> 0).
  { intros x y z P. destruct (Vl _ _ _ _ P) as (I & Rg & E). destruct (St _ Rg) as [(A & B)|[(_ & _ & A & _)|[(A & _)|(A & _)]]]; [auto|destruct (Nq _ A)| |];
    rewrite A in E; replace (_ >=? STAT_CANDIDATE t) with true in E by lia; destruct (u816 _ Ht) as (_ & _ & U); unfold STAT_WS_LINE in *; lia. }
  assert (Lz : forall x y z, inside (sz im) x y z -> znth 0 ws (voxel_offset (dw (sz im)) (dh (sz im)) x y z) = STAT_LABELED -> pixel_is (Img (sz im) ln) x y z 0).
  { intros x y z I Hl. pose proof (px_at (sz im) (Img (sz im) ln) x y z eq_refl Wl I) as P. cbn [pixs] in P. rewrite Ln in P by (apply inside_range; exact I). rewrite Hl in P. replace (_ >=? STAT_CANDIDATE t) with false in P by lia. exact P. }
  split; [symmetry; exact Sm|]. split; [exact Wl|]. split; [symmetry; exact Sm|]. split; [exact Wo|]. split; [|split; [|split; [|split; [|split; [|split]]]]].
  - intros x y z w P. destruct (Vl _ _ _ _ P) as (_ & _ & ->). destruct (_ >=? _); auto.
  - intros x y z l Pl Hl. destruct (px_val (sz im) markers _ _ _ _ Sm Pl) as (I & Rg & El2). rewrite <- El2. fold m. rewrite <- Mk by (auto; unfold m; congruence). exact (px_at (sz im) (Img (sz im) lbl) x y z eq_refl Wo I).
  - intros x y z l Pl Hl. destruct (Vb _ _ _ _ Pl) as (I & Rg & ->). specialize (Pa _ Rg Hl). remember (znth 0 lbl (voxel_offset (dw (sz im)) (dh (sz im)) x y z)) as l eqn:E0. clear E0 Pl Rg.
    remember (voxel_offset (dw (sz im)) (dh (sz im)) x y z) as p eqn:Ep. revert x y z I Ep. induction Pa as [p Hp' Hm|p nb B IH Cv Hb]; intros x y z I Ep.
    + subst p l. apply ib_start. apply (px_at (sz im) markers); auto.
    + destruct Cv as (a & b & c & a' & b' & c' & J & J' & E & E' & Hse). rewrite Ep in E. destruct (voxel_inj (sz im) _ _ _ _ _ _ I J E) as (-> & -> & ->).
      apply ib_step with a' b' c'; [apply IH; auto|exact Hse|]. rewrite <- Hb, Ep. exact (px_at (sz im) (Img (sz im) lbl) a b c eq_refl Wo J).
  - intros x y z x' y' z' l l' Hse P P' Pl Pl'. destruct (Zero _ _ _ P) as (A & B). destruct (Zero _ _ _ P') as (A' & B'). destruct (Vb _ _ _ _ Pl) as (I & Rg & ->). destruct (Vb _ _ _ _ Pl') as (I' & Rg' & ->).
    split; [exact B|]. apply (Sep _ _ A'); auto. apply sees_covers; assumption.
  - intros x y z l P Pl. destruct (Zero _ _ _ P) as (A & B). destruct (Vb _ _ _ _ Pl) as (I & Rg & ->). exact B.
  - intros x y z l P Pl. destruct (Zero _ _ _ P) as (A & B). destruct (Vb _ _ _ _ Pl) as (I & Rg & ->). destruct (Lev _ Rg A (Nq _)) as (k & K1 & K2 & _). exists k. split.
    + remember (znth 0 lbl (voxel_offset (dw (sz im)) (dh (sz im)) x y z)) as l eqn:E0. clear E0 P Pl A B K2 Rg.
      remember (voxel_offset (dw (sz im)) (dh (sz im)) x y z) as p eqn:Ep. revert x y z I Ep. induction K1 as [p Hp' Hm Hv Hl Hq|p nb K1 IH Cv Hv Hb Hl Hq]; intros x y z I Ep.
      * subst p l. apply ip_start with (znth 0 (pixs im) (voxel_offset (dw (sz im)) (dh (sz im)) x y z)); [apply (px_at (sz im) markers); auto|apply (px_at (sz im) im); auto|exact Hv|apply Lz; assumption].
      * destruct Cv as (a & b & c & a' & b' & c' & J & J' & E & E' & Hse). rewrite Ep in E. destruct (voxel_inj (sz im) _ _ _ _ _ _ I J E) as (-> & -> & ->). subst nb.
        apply ip_step with a' b' c' (znth 0 (pixs im) (voxel_offset (dw (sz im)) (dh (sz im)) a b c)); [apply IH; auto|exact Hse|apply (px_at (sz im) im); auto|exact Hv| |apply Lz; assumption].
        rewrite <- Hb. exact (px_at (sz im) (Img (sz im) lbl) a b c eq_refl Wo J).
    + intros F. apply K2. clear - F Vl Zero Sm Wi Wm. induction F as [x y z v (l & Pm & Hm) Pv Hv|x y z x' y' z' v F IH Hz Hse Pv Hv].
      * destruct (px_val (sz im) markers _ _ _ _ Sm Pm) as (I & Rg & E). destruct (px_val (sz im) im _ _ _ _ eq_refl Pv) as (_ & _ & E'). apply ob0; [exact Rg|unfold m; congruence|lia].
      * destruct (px_val (sz im) im _ _ _ _ eq_refl Pv) as (I & _ & E'). destruct (Vl _ _ _ _ Hz) as (I' & _). eapply ob_step; [exact IH|apply Zero; exact Hz|apply sees_covers; assumption|lia].
  - intros x y z l P Pl. destruct (Vl _ _ _ _ P) as (I & Rg & E). destruct (Vb _ _ _ _ Pl) as (_ & _ & ->).
    destruct (u816 _ Ht) as (_ & _ & U). destruct (St _ Rg) as [(A & B)|[(_ & _ & A & _)|[(A & B & _ & C)|(A & B & _ & (o & O1 & O2 & O3))]]].
    + rewrite A in E. replace (_ >=? STAT_CANDIDATE t) with false in E by lia. lia.
    + destruct (Nq _ A).
    + right. split; [exact B|]. intros x' y' z' w Hse P'. destruct (Vl _ _ _ _ P') as (I' & Rg' & ->).
      assert (Hn : znth 0 ws (voxel_offset (dw (sz im)) (dh (sz im)) x' y' z') <> STAT_LABELED).
      { intros Hl. apply (Nq (voxel_offset (dw (sz im)) (dh (sz im)) x' y' z')). apply C; [|exact Hl]. apply (covers_sym se (sz im) Hy HP). apply sees_covers; assumption. }
      destruct (St _ Rg') as [(A' & _)|[(_ & _ & A' & _)|[(A' & _)|(A' & _)]]]; [contradiction|destruct (Nq _ A')| |]; rewrite A'; replace (_ >=? STAT_CANDIDATE t) with true by lia; reflexivity.
    + left. split; [exact B|]. apply (covers_sym se (sz im) Hy HP) in O1. destruct O1 as (a & b & c & a' & b' & c' & J & J' & E1 & E' & Hse). destruct (voxel_inj (sz im) _ _ _ _ _ _ I J E1) as (-> & -> & ->). exists a', b', c', (znth 0 lbl o).
      split; [exact Hse|]. split; [subst o; exact (px_at (sz im) (Img (sz im) lbl) a' b' c' eq_refl Wo J')|]. auto.
Qed.
