(** inflBasins, inflZones and the waterfalls. *)
From Verif Require Export Proofs.ZonesProofs Proofs.LabelUses Proofs.WatershedTheorems Proofs.MorphTheorems2 Proofs.GeodesicFilters.
From Verif Require Import Proofs.PixelProofs Proofs.HitOrMissProofs Proofs.LabelExtrema Proofs.WatershedLines2.

Lemma label_typed t2 se im n res w fuel dse out : label_ok se im -> sz im = sz out -> label_enough im fuel -> label fuel t2 dse se false im out = Some (Some (n, w, res)) ->
  typed_img t2 res /\ wf_img res /\ sz res = sz im.
Proof.
  intros Hok Es Hf E. destruct (label_call fuel t2 dse se im out Es Hok Hf) as (seeds & res' & E' & (Sr & Wr & _ & Ev) & _). rewrite E in E'. injection E' as _ _ <-.
  split; [|auto]. apply typed_all; [exact Wr|]. intros x y z v P. assert (0 <= v <= tmax t2 /\ tmin t2 <= 0).
  { split; [|destruct t2; cbn; lia]. destruct (Ev x y z v P) as [(-> & _) | (i & a & b & c & R & _ & ->)]; [destruct t2; cbn; lia|].
    pose proof (rd_Some_range _ _ _ R). unfold cyclic_label. assert (1 < tmax t2 - 1) by (destruct t2; cbn; lia). pose proof (Z.mod_pos_bound (i + 1 - 1) (tmax t2 - 1)). lia. }
  unfold inty. lia.
Qed.

Lemma const_wf c im : wf_img im -> wf_img (pw1 (fun _ => c) im).
Proof. intros W. apply pw1_spec. exact W. Qed.

Lemma inflBasins_ok fuel t2 junk cs c1 c2 dse se im out : basins_call t2 dse se cs c1 c2 im out -> label_enough im fuel -> skiz_enough im fuel ->
  exists n w lbl mask z1 z2 res, label fuel t2 dse se false im out = Some (Some (n, w, lbl)) /\ sz mask = sz im /\ wf_img mask /\ (forall x y z m, pixel_is mask x y z m -> m <> 0) /\
    zones t2 se lbl mask z1 z2 /\ open_im t2 junk c1 c2 dse true z1 z1 = Some (1, res) /\ inflBasins fuel t2 junk cs c1 c2 dse se false im out = Some (Some (1, res)) /\
    sz res = sz im /\ wf_img res /\ typed_img t2 res /\ le_img res z1.
Proof.
  intros (Ht & G & Wo & So & Hok & HT & H1 & HF & HG & HL & HL1 & HL2) Hf Hf2.
  destruct (label_call fuel t2 dse se im out (eq_sym So) Hok Hf) as (seeds & lbl & E & _).
  destruct (label_typed _ _ _ _ _ _ _ _ _ Hok (eq_sym So) Hf E) as (Tl & Wl & Sl).
  assert (Gl : good_img lbl). { destruct G as (_ & N & B). split; [exact Wl|]. unfold nonempty in *. rewrite Sl. auto. }
  assert (U : is_signed t2 = false) by (destruct Ht as [-> | ->]; reflexivity).
  set (mask := pw1 (fun _ => tmax t2) out).
  assert (Wm : wf_img mask) by (apply const_wf; exact Wo).
  assert (Pm : forall x y z m, pixel_is mask x y z m -> m = tmax t2).
  { intros x y z m (_ & R). cbn [sz pixs mask pw1] in R. rewrite rd_map in R. destruct (rd (pixs out) _); [|discriminate]. injection R as <-. reflexivity. }
  assert (Tm : typed_img t2 mask). { apply typed_all; [exact Wm|]. intros x y z m P. rewrite (Pm _ _ _ _ P). unfold inty. destruct Ht as [-> | ->]; cbn; lia. }
  set (lbl2 := pw2 px_mask (pw1 (px_inv t2) lbl) lbl).
  assert (Wi : wf_img (pw1 (px_inv t2) lbl)) by (apply pw1_spec; exact Wl).
  assert (W2 : wf_img lbl2) by (apply pw2_wf; auto).
  assert (P2 : forall x y z a, pixel_is lbl x y z a -> pixel_is lbl2 x y z (if a =? 0 then 0 else tmax t2 - a)).
  { intros x y z a P. pose proof (Proofs.ZonesProofs.typed_at _ _ _ _ _ _ Tl P) as I.
    pose proof (pw2_is px_mask _ _ x y z _ _ (proj2 (proj2 (pw1_spec (px_inv t2) lbl Wl)) x y z a P) P eq_refl) as Q. unfold px_mask, px_test, nz in Q.
    rewrite px_inv_eq in Q by exact I. replace (tmax t2 + tmin t2 - a) with (tmax t2 - a) in Q by (destruct Ht as [-> | ->]; cbn; lia). destruct (a =? 0); exact Q. }
  assert (T2 : typed_img t2 lbl2). { apply typed_all; [exact W2|]. intros x y z b P. destruct (pixel_exists lbl x y z Wl) as (a & Pa); [apply P|].
    rewrite (pixel_is_fun _ _ _ _ _ _ P (P2 _ _ _ _ Pa)). pose proof (Proofs.ZonesProofs.typed_at _ _ _ _ _ _ Tl Pa) as I. assert (tmin t2 = 0) by (destruct Ht as [-> | ->]; reflexivity). unfold inty in *. destruct (a =? 0); lia. }
  assert (Sz : dw (sz im) * dh (sz im) * dd (sz im) < 2 ^ 31) by (apply Hok).
  destruct (lblSkiz_ok fuel t2 junk cs se lbl lbl2 mask) as (z1 & z2 & Ez & Hz).
  { split; [exact Ht|]. split; [exact Gl|]. split; [exact W2|]. split; [exact Wm|]. split; [reflexivity|]. split; [cbn; congruence|]. split; [exact Tl|]. split; [exact T2|]. split; [exact Tm|].
    rewrite Sl. split; [exact Sz|]. split; [exact HT|]. split; [exact H1|]. split; [exact HF|]. split; [exact HL|].
    intros x y z a b Pa Pb. rewrite (pixel_is_fun _ _ _ _ _ _ Pb (P2 _ _ _ _ Pa)). destruct (a =? 0) eqn:E0; lia. }
  { unfold skiz_enough in *. rewrite Sl. exact Hf2. }
  pose proof Hz as (S1 & S2 & W1 & W3 & T1 & T3 & _).
  assert (Gz : good_img z1). { destruct G as (_ & N & B). split; [exact W1|]. unfold nonempty in *. rewrite S1, Sl. auto. }
  assert (SzZ : sz z1 = sz im) by congruence.
  rewrite <- SzZ in HG, HL1, HL2.
  assert (exists res, open_im t2 junk c1 c2 dse true z1 z1 = Some (1, res)) as (res & Er).
  { rewrite (open_eq t2 junk dse z1 Gz HG c1 c2 true z1 HL1 HL2 W1 eq_refl (fun _ => eq_refl)). eauto. }
  destruct (open_filter t2 dse junk junk c1 c2 c1 c2 true false z1 z1 (new_img junk res) 1 res) as (Tr & Lr & _); auto.
  { split; [exact Gz|]. split; [exact W1|]. split; [reflexivity|]. auto. }
  { rewrite (open_eq t2 junk dse z1 Gz HG c1 c2 true z1 HL1 HL2 W1 eq_refl (fun _ => eq_refl)) in Er. injection Er as <-. split; [apply good_mk; exact Gz|]. split; [apply new_wf_img, mk_img_wf, W1|]. split; [reflexivity|]. split; [discriminate|exact HL1]. }
  assert (sz res = sz im /\ wf_img res) as (Sr & Wr).
  { rewrite (open_eq t2 junk dse z1 Gz HG c1 c2 true z1 HL1 HL2 W1 eq_refl (fun _ => eq_refl)) in Er. injection Er as <-. split; [exact SzZ|apply mk_img_wf, W1]. }
  do 3 eexists. exists mask, z1, z2, res. split; [exact E|]. split; [exact So|]. split; [exact Wm|]. split; [intros x y z m P; rewrite (Pm _ _ _ _ P); destruct Ht as [-> | ->]; cbn; lia|].
  split; [exact Hz|]. split; [exact Er|]. split; [|auto]. unfold inflBasins. rewrite same_size_true by auto. cbn [negb]. rewrite E. cbn [fuel_bind snd]. fold lbl2. fold mask. rewrite Ez. cbn [fuel_bind fst snd]. rewrite Er. reflexivity.
Qed.

(** The gradient of inflZones: the erosion by an element without points leaves its output as it was. *)
Lemma erode_no_points junk cs bv im out : sz out = sz im -> erode junk cs bv no_points false im out = Some (1, out).
Proof. intros S. unfold erode. rewrite same_size_true by auto. reflexivity. Qed.

Lemma rd_const (f : Z -> Z) l k v : rd (map f l) k = Some v -> exists a, rd l k = Some a /\ v = f a.
Proof. rewrite rd_map. destruct (rd l k); cbn; [|discriminate]. intros [= <-]. eauto. Qed.

Lemma inflZones_blank fuel t cs c1 c2 c3 c4 dse se im out : let junk := fun _ => 65535 in (t = UINT8 \/ t = UINT16) ->
  basins_call UINT16 dse se cs c1 c2 im (new_img junk im) -> (forall k, legal_conf (dh (sz im)) (c3 k)) -> sz out = sz im -> label_enough im fuel -> skiz_enough im fuel ->
  exists res, inflZones fuel t junk cs c1 c2 c3 c4 dse se im out = Some (Some (1, res)) /\ sz res = sz im /\ wf_img res /\ forall x y z v, pixel_is res x y z v -> v = 0.
Proof.
  intros junk Ht H HL So Hf Hf2. pose proof H as (_ & (W & N & B) & _ & _ & _ & HT & H1 & HF & _).
  destruct (inflBasins_ok fuel UINT16 junk cs c1 c2 dse se im _ H Hf Hf2) as (n & w & lbl & mask & z1 & z2 & b & _ & _ & _ & _ & _ & _ & E & Sb & Wb & Tb & _).
  assert (Gb : good_img b). { split; [exact Wb|]. unfold nonempty in *. rewrite Sb. auto. }
  assert (WN : wf_img (new_img junk b)) by (apply new_wf_img; exact Wb).
  rewrite <- Sb in HF, HL. destruct (dilate_ok junk c3 0 se false b (new_img junk b) Gb WN eq_refl ltac:(discriminate) HL HT ltac:(lia) HF) as (D & ED & HD).
  rewrite H1 in HD. change (Z.to_nat 1) with 1%nat in HD. rewrite passes_one in HD. destruct HD as (SD & WD & HD).
  unfold inflZones. rewrite same_size_true by auto. cbn [negb]. rewrite E. cbn [fuel_bind snd]. unfold gradient. change (tmin UINT16) with 0. rewrite ED. cbn [option_bind snd]. rewrite erode_no_points by reflexivity. cbn [option_bind snd].
  eexists. split; [reflexivity|].
  assert (WG : wf_img (sub_im UINT16 D (new_img junk b))) by (apply (pw2_wf (px_sub UINT16)); [exact WD|exact WN|cbn; congruence]).
  set (th := pw1 _ (sub_im UINT16 D (new_img junk b))). assert (WT : wf_img th) by (apply pw1_spec; exact WG).
  split; [cbn; congruence|]. split; [apply pw1_spec; exact WT|]. intros x y z v (I & R).
  cbn [sz pixs pw1 th sub_im] in I, R. apply rd_const in R as (u & R & ->). apply rd_const in R as (g & R & ->).
  destruct (pixel_exists D x y z WD I) as (d & Pd). assert (g = px_sub UINT16 d 65535) as ->.
  { assert (Pj : pixel_is (new_img junk b) x y z 65535).
    { destruct (pixel_exists (new_img junk b) x y z WN) as (j & Pj); [cbn [new_img sz]; rewrite <- SD; exact I|]. pose proof Pj as (_ & Rj). cbn [pixs new_img] in Rj. apply rd_const in Rj as (i & _ & ->). exact Pj. }
    pose proof (pw2_is (px_sub UINT16) D (new_img junk b) x y z _ _ Pd Pj SD) as (_ & Q). cbn [pw2 pixs] in Q. cbn [sz pw2] in Q. rewrite R in Q. injection Q as ->. reflexivity. }
  assert (Hd : inty UINT16 d).
  { destruct (HD x y z d Pd) as ((x' & y' & z' & _ & [P | (_ & ->)]) & _); [exact (Proofs.ZonesProofs.typed_at _ _ _ _ _ _ Tb P)|]. unfold inty; cbn; lia. }
  assert (px_thresh (wrap UINT16 (wrap t (tmin t + 1))) (wrap UINT16 (tmax t)) (tmax UINT16) 0 0 = 0) as E0 by (destruct Ht as [-> | ->]; reflexivity).
  assert (wrap t 0 = 0) as E1 by (destruct Ht as [-> | ->]; reflexivity).
  assert (px_sub UINT16 d 65535 = 0) as E2.
  { unfold px_sub. unfold inty in Hd. change (wrap UINT16 (tmin UINT16 + 65535)) with 65535. change (tmin UINT16) with 0 in Hd |- *. change (tmax UINT16) with 65535 in Hd. destruct (d <? 65535) eqn:L; [reflexivity|]. apply Z.ltb_ge in L. replace (d - 65535) with 0 by lia. reflexivity. }
  rewrite E2. cbv beta. change (tmin UINT16) with 0. rewrite E0. exact E1.
Qed.
