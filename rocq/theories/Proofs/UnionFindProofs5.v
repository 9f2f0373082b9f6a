(** Area openings by union-find: the result on images. *)
From Verif Require Export Proofs.UnionFindProofs4 Spec.UnionFindSpec.

Local Notation "l # i" := (znth 0 l i) (at level 9).

Lemma to_off_t_id n : 0 <= n < 2 ^ 63 -> to_off_t n = n.
Proof. intros H. unfold to_off_t. rewrite Z.mod_small by lia. lia. Qed.

(** [lk] does without bounds on the size of the image. *)
Section images.
Variables (se : strelt) (im : img).
Local Notation s := (sz im).
Local Notation N := (dw s * dh s * dd s).
Local Notation off := (voxel_offset (dw s) (dh s)).
Hypothesis W : wf_img im.
Hypothesis HP : planar se s.
Hypothesis Hsy : symmetric_se se.

Lemma joined_lk (ok : Z -> Prop) h x y z x' y' z' : (forall v, ok v <-> h <= v) -> inside s x y z -> inside s x' y' z' ->
  (joined se ok (fun a b c => a = x /\ b = y /\ c = z) im x' y' z' <-> lk (pixs im) N (covers se s) h (off x y z) (off x' y' z')).
Proof using W HP Hsy.
  intros Hok I I'. split.
  - intros H. clear I'. induction H as [a b c v (-> & -> & ->) P O|a b c a' b' c' v H IH S P O]; apply Hok in O.
    + rewrite <- (pixel_znth im _ _ _ _ P) in O. apply lk_refl; [apply inside_range; exact I|exact O].
    + pose proof (joined_inside se im _ _ _ _ _ H) as J. destruct P as (I2 & E). eapply lk_step; [exact IH| |].
      * apply (covers_sym se s Hsy HP). exists a, b, c, a', b', c'. auto 10.
      * unfold znth. rewrite E. exact O.
  - intros H. remember (off x' y' z') as q eqn:Eq. revert x' y' z' I' Eq. induction H as [R O|q r H IH A O]; intros x' y' z' I' Eq.
    + destruct (LoopFacts.voxel_inj s _ _ _ _ _ _ I I' Eq) as (-> & -> & ->). eapply joined_seed; [auto|apply znth_pixel; assumption|apply Hok; exact O].
    + destruct A as (a & b & c & a' & b' & c' & J & J' & -> & E & S). rewrite Eq in E. destruct (LoopFacts.voxel_inj s _ _ _ _ _ _ I' J' E) as (-> & -> & ->).
      eapply joined_step; [apply (IH a b c J eq_refl)| |apply znth_pixel; [exact W|exact J']|apply Hok; rewrite <- Eq; exact O]. apply (sees_sym se s); assumption.
Qed.

Lemma reach_kon x y z x' y' z' : inside s x y z -> inside s x' y' z' -> (reach se im x y z x' y' z' <-> kon (covers se s) (off x y z) (off x' y' z')).
Proof using W HP Hsy.
  intros I I'. split.
  - intros H. clear I'. induction H as [a b c v (-> & -> & ->) P O|a b c a' b' c' v H IH S P O]; [apply kon_refl|].
    pose proof (joined_inside se im _ _ _ _ _ H) as J. eapply kon_step; [exact IH|]. apply (covers_sym se s Hsy HP). exists a, b, c, a', b', c'. destruct P. auto 10.
  - intros H. remember (off x' y' z') as q eqn:Eq. revert x' y' z' I' Eq. induction H as [|q r H IH A]; intros x' y' z' I' Eq.
    + destruct (LoopFacts.voxel_inj s _ _ _ _ _ _ I I' Eq) as (-> & -> & ->). eapply joined_seed; [auto|apply znth_pixel; assumption|exact Logic.I].
    + destruct A as (a & b & c & a' & b' & c' & J & J' & -> & E & S). rewrite Eq in E. destruct (LoopFacts.voxel_inj s _ _ _ _ _ _ I' J' E) as (-> & -> & ->).
      eapply joined_step; [apply (IH a b c J eq_refl)| |apply znth_pixel; [exact W|exact J']|exact Logic.I]. apply (sees_sym se s); assumption.
Qed.

Lemma zone_big n h x y z : inside s x y z -> (zone_has CArea n (upper_zone se im h x y z) <-> big n (lk (pixs im) N (covers se s) h (off x y z))).
Proof using W HP Hsy.
  intros I. unfold zone_has, big. destruct W as (Wd & _). split; intros (l & ND & L & A).
  - exists (map (fun '(x, y, z) => off x y z) l). assert (Il : forall x y z, In (x, y, z) l -> inside s x y z) by (intros a b c Hi; eapply joined_inside; apply A, Hi).
    split; [|split; [rewrite map_length; exact L|]].
    + clear - ND Il. induction l as [|((x & y) & z) l IH]; [constructor|].
      cbn. apply NoDup_cons_iff in ND as (Nx & ND). constructor; [|apply IH; [exact ND|intros a b c Hi; apply Il; right; exact Hi]].
      intros Hi. apply in_map_iff in Hi as (((a & b) & c) & E & Hi). apply Nx. destruct (LoopFacts.voxel_inj s a b c x y z) as (-> & -> & ->); [apply Il; right; exact Hi|apply Il; left; reflexivity|exact E|exact Hi].
    + intros q Hq. apply in_map_iff in Hq as (((a & b) & c) & <- & Hq). apply (joined_lk (fun v => h <= v) h); [tauto|exact I|apply Il; exact Hq|apply A; exact Hq].
  - assert (Il : forall q, In q l -> 0 <= q < N) by (intros q Hq; apply (lk_end (pixs im) N (covers se s) (covers_sym se s Hsy HP) (adj_rng' se s) _ _ _ (A q Hq))).
    assert (Co : forall q, 0 <= q < N -> inside s (fst (fst (uf_coords s q))) (snd (fst (uf_coords s q))) (snd (uf_coords s q)) /\ off (fst (fst (uf_coords s q))) (snd (fst (uf_coords s q))) (snd (uf_coords s q)) = q).
    { intros q Hq. destruct (LoopFacts.voxel_surj s q Wd Hq) as (a & b & c & J & ->). rewrite uf_coords_voxel by exact J. auto. }
    exists (map (uf_coords s) l). split; [|split; [rewrite map_length; exact L|]].
    + clear - ND Il Co. induction l as [|q l IH]; [constructor|]. cbn. apply NoDup_cons_iff in ND as (Nx & ND). constructor; [|apply IH; [exact ND|intros p Hi; apply Il; right; exact Hi]].
      intros Hi. apply in_map_iff in Hi as (p & E & Hi). destruct (Co p (Il p (or_intror Hi))) as (_ & E1). destruct (Co q (Il q (or_introl eq_refl))) as (_ & E2). rewrite E in E1. congruence.
    + intros a b c Hi. apply in_map_iff in Hi as (q & E & Hi). destruct (Co q (Il q Hi)) as (J & Eq). rewrite E in J, Eq. cbn [fst snd] in J, Eq. apply (joined_lk (fun v => h <= v) h); [tauto|exact I|exact J|]. rewrite Eq. apply A. exact Hi.
Qed.
End images.

Theorem areaOpening_spec fuel t se im imOut n : wf_img im -> typed_img t im -> wf_img imOut -> sz imOut = sz im -> se_odd se = false -> symmetric_se se -> 1 <= n < 2 ^ 63 ->
  (length (pixs im) < fuel)%nat -> exists out, areaOpening fuel t se false im n imOut = Some (Some (1, out)) /\ area_opened n se im out.
Proof.
  intros W Ty Wo So Hodd Hsy Hn HF. pose proof W as (Wd & Wl). assert (HP : planar se (sz im)) by (intros H; congruence).
  destruct (areaOpening_offsets t se (sz im) (pixs im) n Wd Wl) with (fuel := fuel) (out0 := imOut) (n := n) as (out & E & Lo & H); try assumption; try lia.
  - intros p Hp. apply (proj1 (Forall_forall _ _) Ty). eapply rd_In. apply (rd_znth 0). lia.
  - apply to_off_t_id. lia.
  - exists (Img (sz im) out). split; [destruct im; exact E|]. split; [reflexivity|]. split; [split; [exact Wd|cbn [pixs sz]; lia]|].
    intros x y z v o Pv Po. assert (inside (sz im) x y z) as I by apply Pv. set (p := voxel_offset (dw (sz im)) (dh (sz im)) x y z).
    assert (Eo : out # p = o) by (destruct Po as (_ & Po); cbn [pixs sz] in Po; unfold znth, p; rewrite Po; reflexivity).
    assert (Ev : (pixs im) # p = v) by exact (pixel_znth im _ _ _ _ Pv).
    destruct (H p (inside_range _ _ _ _ I)) as (r & Er & Lk & B & C). rewrite Eo in Er. rewrite <- Er in Lk, B, C. rewrite Ev in C.
    destruct (lk_start _ _ _ _ _ _ Lk) as (_ & Lv). rewrite Ev in Lv.
    destruct (lk_end (pixs im) _ (covers se (sz im)) (covers_sym se (sz im) Hsy HP) (adj_rng' se (sz im)) _ _ _ Lk) as (Rr & _).
    destruct (LoopFacts.voxel_surj (sz im) r Wd Rr) as (xr & yr & zr & Ir & Eqr).
    assert (Hb : zone_has CArea n (upper_zone se im o x y z) \/ forall q, kon (covers se (sz im)) p q -> o <= (pixs im) # q).
    { destruct B as [B|B]; [left; apply zone_big; assumption|right; exact B]. }
    assert (Kr : kon (covers se (sz im)) p r). { clear - Lk. induction Lk as [|a b L IH A B]; [apply kon_refl|]. eapply kon_step; eassumption. }
    assert (Pr : pixel_is im xr yr zr o) by (rewrite Er, Eqr; apply znth_pixel; assumption).
    assert (Hr : reach se im x y z xr yr zr) by (apply reach_kon; [assumption..|]; fold p; rewrite <- Eqr; exact Kr).
    split; [exact Lv|]. split; [exists xr, yr, zr; auto|]. split; [|intros h Hh Z; apply (C h Hh); apply zone_big in Z; assumption].
    destruct Hb as [Hb|Hb]; [left; exact Hb|right]. intros a b c w R P. rewrite <- (pixel_znth im _ _ _ _ P). apply Hb. apply reach_kon in R; try assumption. apply P.
Qed.

Lemma area_unique n se im out out' : wf_img im -> area_opened n se im out -> area_opened n se im out' -> out = out'.
Proof.
  intros W (So & Wo & H) (So' & Wo' & H').
  assert (D : forall a b, sz a = sz im -> sz b = sz im -> wf_img a -> wf_img b ->
    (forall x y z v o, pixel_is im x y z v -> pixel_is a x y z o -> o <= v /\ (exists i j k, reach se im x y z i j k /\ pixel_is im i j k o) /\
      (zone_has CArea n (upper_zone se im o x y z) \/ forall i j k w, reach se im x y z i j k -> pixel_is im i j k w -> o <= w) /\ forall h, o < h <= v -> ~ zone_has CArea n (upper_zone se im h x y z)) ->
    (forall x y z v o, pixel_is im x y z v -> pixel_is b x y z o -> o <= v /\ (exists i j k, reach se im x y z i j k /\ pixel_is im i j k o) /\
      (zone_has CArea n (upper_zone se im o x y z) \/ forall i j k w, reach se im x y z i j k -> pixel_is im i j k w -> o <= w) /\ forall h, o < h <= v -> ~ zone_has CArea n (upper_zone se im h x y z)) ->
    forall x y z u v, pixel_is a x y z u -> pixel_is b x y z v -> u <= v).
  { intros a b Sa Sb Wa Wb Ha Hb x y z u v Pa Pb. destruct (pixel_exists im x y z W) as (w & P); [rewrite <- Sa; apply Pa|].
    destruct (Ha _ _ _ _ _ P Pa) as (A1 & A2 & A3 & A4). destruct (Hb _ _ _ _ _ P Pb) as (B1 & (i & j & k & B2 & B2') & B3 & B4).
    destruct (Z_le_gt_dec u v) as [|G]; [assumption|exfalso]. destruct A3 as [A3|A3]; [apply (B4 u); [lia|exact A3]|]. specialize (A3 _ _ _ _ B2 B2'). lia. }
  apply img_ext; [assumption..|congruence|]. intros x y z u P.
  destruct (pixel_exists out' x y z Wo') as (v & P'); [rewrite So', <- So; apply P|].
  pose proof (D out out' So So' Wo Wo' H H' _ _ _ _ _ P P'). pose proof (D out' out So' So Wo' Wo H' H _ _ _ _ _ P' P). replace u with v by lia. exact P'.
Qed.

(** On an image where every pixel can be reached from every other, this is the opening of the max-trees. *)
Lemma area_attr n se im out m : connecting se im -> least_value im m -> area_opened n se im out -> attr_opened CArea n se im out.
Proof.
  intros C ((a & b & c & Pm) & M) (So & Wo & H). split; [exact So|]. split; [exact Wo|]. exists m. split; [split; [exists a, b, c; exact Pm|exact M]|].
  intros x y z v o Pv Po. destruct (H _ _ _ _ _ Pv Po) as (A1 & (i & j & k & A2 & A2') & A3 & A4). specialize (M _ _ _ _ A2') as Mo.
  split; [lia|]. split; [|exact A4]. destruct A3 as [A3|A3]; [right; exact A3|left]. assert (o <= m); [|lia]. apply (A3 a b c m); [|exact Pm]. apply C; [apply Pv|apply Pm].
Qed.

Lemma area_typed t n se im out : typed_img t im -> wf_img im -> area_opened n se im out -> typed_img t out.
Proof.
  intros Ty W (So & Wo & H). apply Forall_forall. intros o Ho. apply In_rd in Ho as (q & _ & Eq). pose proof (rd_Some_range _ _ _ Eq) as Rq.
  pose proof Wo as (Wd & Wl). rewrite Wl in Rq. destruct (LoopFacts.voxel_surj (sz out) q Wd Rq) as (x & y & z & I & ->).
  assert (Po : pixel_is out x y z o) by (split; assumption). destruct (pixel_exists im x y z W) as (v & Pv); [rewrite <- So; exact I|].
  destruct (H _ _ _ _ _ Pv Po) as (_ & (a & b & c & _ & P) & _). apply (proj1 (Forall_forall _ _) Ty). destruct P as (_ & P). apply (rd_In _ _ _ P).
Qed.

Lemma reach_neg t se a b x y z p q r : wf_img a -> negative t a b -> reach se a x y z p q r -> reach se b x y z p q r.
Proof.
  intros W N. apply joined_map; [symmetry; apply N|]. intros i j k u P _. destruct (pixel_exists b i j k) as (v & Pv); [apply N|rewrite (proj1 N); apply P|]. eauto.
Qed.

Lemma area_closed_opened t n se a b out out' : wf_img a -> wf_img out -> negative t a b -> negative t out' out -> area_opened n se b out' -> area_closed n se a out.
Proof.
  intros W Wo N N' (So & Wo' & H). assert (Sb : sz b = sz a) by apply N. assert (Sn : sz out = sz out') by apply N'. split; [congruence|]. split; [exact Wo|].
  pose proof (neg_sym t a b W N) as Nb. assert (Wb : wf_img b) by apply N.
  intros x y z v o Pv Po. destruct (neg_back t out' out x y z o Wo' N' Po) as (o' & Po' & Eo). destruct (neg_back t b a x y z v Wb Nb Pv) as (v' & Pv' & Ev).
  destruct (H _ _ _ _ _ Pv' Po') as (A1 & (i & j & k & A2 & A2') & A3 & A4). split; [lia|]. split; [|split].
  - exists i, j, k. split; [exact (reach_neg t se b a _ _ _ _ _ _ Wb Nb A2)|]. destruct (pixel_exists a i j k W) as (u & Pu); [rewrite <- Sb; apply A2'|].
    destruct (neg_back t b a i j k u Wb Nb Pu) as (u' & Pu' & Eu). rewrite (pixel_is_fun _ _ _ _ _ _ Pu' A2') in Eu. replace o with u by lia. exact Pu.
  - destruct A3 as [A3|A3]; [left|right].
    + eapply zone_has_mono; [|exact A3]. intros p q r Z. apply (lower_upper t se a b); [assumption..|]. replace (tmin t + tmax t - o) with o' by lia. exact Z.
    + intros p q r w R P. destruct (neg_back t b a p q r w Wb Nb P) as (w' & Pw & Ew). specialize (A3 p q r w' (reach_neg t se a b _ _ _ _ _ _ W N R) Pw). lia.
  - intros h Hh Z. apply (A4 (tmin t + tmax t - h)); [lia|]. eapply zone_has_mono; [|exact Z]. intros p q r Zp. apply (lower_upper t se a b) in Zp; assumption.
Qed.

Theorem areaClosing_spec fuel t se im imOut n : wf_img im -> typed_img t im -> wf_img imOut -> sz imOut = sz im -> se_odd se = false -> symmetric_se se -> 1 <= n < 2 ^ 63 ->
  (length (pixs im) < fuel)%nat -> exists out, areaClosing fuel t se im n imOut = Some (Some (1, out)) /\ area_closed n se im out.
Proof.
  intros W Ty Wo So Hodd Hsy Hn HF. pose proof (inv_negative t im W Ty) as N. pose proof (neg_typed t im _ W Ty N) as Ty'.
  assert (W' : wf_img (pw1 (px_inv t) im)) by apply N.
  destruct (areaOpening_spec fuel t se (pw1 (px_inv t) im) imOut n) as (o & E & A); try assumption; [cbn [pw1 pixs]; rewrite map_length; exact HF|].
  pose proof A as (Sz & Wz & _). pose proof (area_typed t n se _ o Ty' W' A) as To. pose proof (inv_negative t o Wz To) as N'.
  exists (pw1 (px_inv t) o). split; [|eapply area_closed_opened; [exact W|apply N'|exact N|exact N'|exact A]].
  unfold areaClosing. rewrite same_size_true by congruence. cbn [negb]. rewrite E. reflexivity.
Qed.
