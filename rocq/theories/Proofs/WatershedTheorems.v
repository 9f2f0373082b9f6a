(** Flooding from markers, in terms of pixels. *)
From Verif Require Export Proofs.WatershedProofs Proofs.MeasureProofs Proofs.GeodesicUses.

Section Pixels.
Context (se : strelt) (im markers : img) (s : dims) (Es : sz im = s) (Em : sz markers = s) (Wi : wf_img im) (Wm : wf_img markers).
Notation N := (dw s * dh s * dd s).
Notation off x y z := (voxel_offset (dw s) (dh s) x y z).
Local Notation "l # i" := (znth 0 l i) (at level 9).

Lemma px_at i x y z : sz i = s -> wf_img i -> inside s x y z -> pixel_is i x y z (pixs i) # (off x y z).
Proof. intros E (_ & L) I. unfold pixel_is. rewrite E in *. split; [exact I|]. apply rd_znth. rewrite L. apply inside_range. exact I. Qed.

Lemma px_val i x y z v : sz i = s -> pixel_is i x y z v -> inside s x y z /\ 0 <= off x y z < N /\ (pixs i) # (off x y z) = v.
Proof. intros E (I & R). rewrite E in *. split; [exact I|]. split; [apply inside_range; exact I|]. apply znth_rd. exact R. Qed.

Lemma sees_covers x y z x' y' z' : inside s x y z -> inside s x' y' z' -> (sees se x y z x' y' z' <-> covers se s (off x y z) (off x' y' z')).
Proof.
  intros I I'. split.
  - intros H. exists x, y, z, x', y', z'. auto.
  - intros (a & b & c & a' & b' & c' & J & J' & E & E' & H). destruct (voxel_inj s _ _ _ _ _ _ I J E) as (-> & -> & ->). destruct (voxel_inj s _ _ _ _ _ _ I' J' E') as (-> & -> & ->). exact H.
Qed.

Lemma joined_below h x y z : joined se (fun b => b < h) (in_marker markers) im x y z -> inside s x y z /\ below se s (pixs im) (pixs markers) h (off x y z).
Proof.
  intros J. induction J as [x y z b (l & Pl & Hl) Pb Hb|x y z x' y' z' b J (I' & IH) Se Pb Hb]; destruct (px_val _ _ _ _ _ Es Pb) as (I & R & E); (split; [exact I|]).
  - destruct (px_val _ _ _ _ _ Em Pl) as (_ & _ & El). apply below0; [exact R|congruence|lia].
  - apply below_step with (off x' y' z'); [exact IH|apply sees_covers; assumption|lia].
Qed.

Lemma joined_all lbl : (forall p, 0 <= p < N -> (pixs markers) # p <> 0 -> lbl # p <> 0) -> (forall p nb, 0 <= p < N -> lbl # p <> 0 -> covers se s nb p -> lbl # nb <> 0) ->
  forall x y z, joined se (fun _ => True) (in_marker markers) im x y z -> inside s x y z /\ lbl # (off x y z) <> 0.
Proof.
  intros H0 H1 x y z J. induction J as [x y z b (l & Pl & Hl) Pb Hb|x y z x' y' z' b J (I' & IH) Se Pb Hb]; destruct (px_val _ _ _ _ _ Es Pb) as (I & R & E); (split; [exact I|]).
  - destruct (px_val _ _ _ _ _ Em Pl) as (_ & _ & El). apply H0; [exact R|congruence].
  - apply H1 with (off x' y' z'); [apply inside_range; exact I'|exact IH|apply sees_covers; assumption].
Qed.

Lemma bpath_basin lbl l h p : Z.of_nat (length lbl) = N -> bpath se s (pixs im) (pixs markers) lbl l h p -> forall x y z, inside s x y z -> p = off x y z -> basin_path se im markers (Img s lbl) l h x y z.
Proof.
  intros L B. assert (Wo : wf_img (Img s lbl)) by (split; [rewrite <- Es; apply Wi|exact L]). induction B as [p Hp Hm Hv|p nb B IH Cv Hv Hb]; intros x y z I Ep; [subst p l|subst nb].
  - eapply bp_start; [|apply px_at; auto|exact Hv]. apply px_at; auto.
  - destruct Cv as (a & b & c & a' & b' & c' & J & J' & E & E' & Hs). destruct (voxel_inj s _ _ _ _ _ _ I J E) as (-> & -> & ->).
    eapply bp_step; [exact (IH _ _ _ J' E')|exact Hs|apply px_at; auto|exact Hv|]. rewrite <- Hb. exact (px_at (Img s lbl) a b c eq_refl Wo J).
Qed.

Lemma basin_joined out l h x y z : l <> 0 -> basin_path se im markers out l h x y z -> joined se (fun _ => True) (in_marker markers) im x y z.
Proof.
  intros Hl B. induction B as [x y z v Pm Pv Hv|x y z x' y' z' v B IH Hs Pv Hv Po].
  - apply joined_seed with v; [exists l; auto|exact Pv|exact I].
  - eapply joined_step; eauto.
Qed.
End Pixels.

Lemma fmax_lt l a b : a < b -> (forall v, In v l -> v < b) -> fmax l a < b.
Proof. intros H1 H2. destruct (fmax_spec l a) as ([->|H] & _); auto. Qed.

Theorem basins_ok fuel t t2 se im markers out : flood_ok t t2 se im markers -> sz out = sz im -> (length (pixs im) <= fuel)%nat ->
  (forall x y z l, pixel_is markers x y z l -> l < tmax t2) ->
  exists res, basins fuel t t2 se im markers out = Some (Some (1, res)) /\ flooded se im markers res.
Proof.
  intros (Ht & Wi & Wm & Sm & Ti & Tm & Hs & Hw & Hp & HP) So Hf Hlt. unfold basins. rewrite !same_size_true by congruence. cbn [andb negb].
  rewrite maxVal_eq by exact Wm. cbn [option_bind].
  assert (E : fmax (considered false markers) (tmin t2) < tmax t2).
  { apply fmax_lt; [destruct t2; cbn; lia|]. intros v Hv. cbn in Hv. apply In_rd in Hv as (k & Hk & R). destruct Wm as (Wd & Lm). rewrite Lm in Hk.
    destruct (voxel_exists (sz markers) k) as (x & y & z & I & Ek); [apply int_small; rewrite Sm; exact Hs|exact Hk|]. apply (Hlt x y z). split; [exact I|]. rewrite <- Ek. exact R. }
  replace (fmax (considered false markers) (tmin t2) <? tmax t2) with true by lia. cbn [negb].
  pose proof Wi as (Wd & Li). pose proof Wm as (_ & Lm). rewrite Sm in Lm. pose proof Hs as (_ & _ & _ & Hbig).
  destruct (flood_init_ok t (pixs im) (pixs markers) Ht Ti ltac:(lia) ltac:(lia)) as (q & r & Eq & Q & ND & Lr & R). rewrite Eq. cbn [option_bind].
  assert (Ct : (length r + count 0 (pixs markers) <= length (pixs markers))%nat).
  { (* the queue holds the offsets of the nonzero pixels *)
    assert (Hc : forall l : list Z, (length (filter (fun v : Z => negb (v =? 0)%Z) l) + count 0 l = length l)%nat). { clear. intros l. unfold count. induction l as [|a l IH]; cbn; [reflexivity|]. destruct (a =? 0); cbn; lia. }
    rewrite <- (Hc (pixs markers)). apply Nat.add_le_mono_r.
    replace (filter (fun v => negb (v =? 0)) (pixs markers)) with (map (fun i => znth 0 (pixs markers) i) (filter (fun i => negb (znth 0 (pixs markers) i =? 0)) (zseq (Z.of_nat (length (pixs markers)))))).
    - rewrite map_length. rewrite <- (map_length snd r). apply NoDup_incl_length; [exact ND|]. intros p Hin. apply in_map_iff in Hin as ((v, p') & Ep & Hin). cbn in Ep. subst p'.
      apply R in Hin as (A & _ & C). apply filter_In. split; [apply zseq_In; exact A|]. destruct (Z.eqb_spec (znth 0 (pixs markers) p) 0); [contradiction|reflexivity].
    - rewrite <- (filter_map_comm (fun v => negb (v =? 0)) (znth 0 (pixs markers))), map_znth_zseq. reflexivity. }
  pose proof (flood_start t se (sz im) (pixs im) (pixs markers) Ht ltac:(lia) ltac:(lia) Ti q r Q ND R) as IV.
  destruct (flood_loop_ok t se (sz im) (pixs im) (pixs markers) Ht Hs Hp HP ltac:(lia) Ti fuel _ _ _ _ IV ltac:(lia) ltac:(lia)) as (h & lbl & q' & El & [L' Q' ND' Tok Mk Dn Bl Pa]).
  rewrite El. cbn [fuel_bind fl_lbl]. exists (Img (sz im) lbl). split; [reflexivity|].
  assert (Wo : wf_img (Img (sz im) lbl)) by (split; [exact Wd|exact L']).
  assert (Pth : forall x y z l, pixel_is (Img (sz im) lbl) x y z l -> l <> 0 -> exists h, basin_path se im markers (Img (sz im) lbl) l h x y z /\ ~ joined se (fun b => b < h) (in_marker markers) im x y z).
  { intros x y z l Pl Hl. destruct (px_val (sz im) (Img (sz im) lbl) _ _ _ _ eq_refl Pl) as (I & Rg & El2). cbn [pixs] in El2. destruct (Pa _ Rg ltac:(congruence)) as (k & P1 & P2 & _). rewrite El2 in P1. exists k. split.
    - eapply bpath_basin; eauto.
    - intros J. apply (joined_below _ _ _ (sz im) eq_refl Sm) in J. tauto. }
  split; [reflexivity|]. split; [exact Wo|]. split; [|split; [|exact Pth]].
  - intros x y z l Pl Hl. destruct (px_val (sz im) markers _ _ _ _ Sm Pl) as (I & Rg & El2). rewrite <- El2. rewrite <- Mk by (auto; congruence). exact (px_at (sz im) (Img (sz im) lbl) x y z eq_refl Wo I).
  - intros x y z l Pl. split.
    + intros Hl. destruct (Pth x y z l Pl Hl) as (k & B & _). eapply basin_joined; eauto.
    + intros J. destruct (px_val (sz im) (Img (sz im) lbl) _ _ _ _ eq_refl Pl) as (I & Rg & El2). cbn [pixs] in El2.
      apply (joined_all se im markers (sz im) eq_refl Sm lbl) in J; [destruct J; congruence| |].
      * intros p Hp' Hm. rewrite Mk; assumption.
      * intros p nb Hp' Hl Cv. apply (Dn p nb); auto.
Qed.

(** A label equal to the type maximum is refused. *)
Theorem basins_reject fuel t t2 se im markers out x y z : flood_ok t t2 se im markers -> sz out = sz im -> pixel_is markers x y z (tmax t2) ->
  basins fuel t t2 se im markers out = Some (Some (-100, out)).
Proof.
  intros (Ht & Wi & Wm & Sm & Ti & Tm & Hs & Hw & Hp & HP) So Hm. unfold basins. rewrite !same_size_true by congruence. cbn [andb negb].
  rewrite maxVal_eq by exact Wm. cbn [option_bind].
  assert (E : tmax t2 <= fmax (considered false markers) (tmin t2)) by (apply fmax_spec; cbn; destruct Hm as (_ & R); eapply rd_In; exact R).
  replace (fmax (considered false markers) (tmin t2) <? tmax t2) with false by lia. reflexivity.
Qed.
