(** Attribute openings: the result on images, and what follows from it. *)
From Verif Require Export Proofs.MaxTreeProofs9.

Local Notation "l # i" := (znth 0 l i) (at level 9).

Section translate.
Variables (se : strelt) (im : img).
Local Notation s := (sz im).
Local Notation N := (dw s * dh s * dd s).
Local Notation off := (voxel_offset (dw s) (dh s)).
Hypothesis W : wf_img im.
Hypothesis Hs : int_sized s.
Hypothesis HP : planar se s.
Hypothesis Hsy : symmetric_se se.

Lemma pixel_znth x y z v : pixel_is im x y z v -> znth 0 (pixs im) (off x y z) = v.
Proof using. intros (_ & E). unfold znth. rewrite E. reflexivity. Qed.
Lemma znth_pixel x y z : inside s x y z -> pixel_is im x y z (znth 0 (pixs im) (off x y z)).
Proof using W. intros I. split; [exact I|]. apply rd_znth. destruct W as (_ & ->). apply inside_range. exact I. Qed.

Lemma joined_inside ok seed x y z : joined se ok seed im x y z -> inside s x y z.
Proof using. intros H. destruct H as [x y z b _ (I & _) _|x y z x' y' z' b _ _ (I & _) _]; exact I. Qed.

Lemma zone_lk h x y z x' y' z' : inside s x y z -> inside s x' y' z' ->
  (upper_zone se im h x y z x' y' z' <-> lk (pixs im) N (covers se s) h (off x y z) (off x' y' z')).
Proof using W Hs HP Hsy.
  intros I I'. split.
  - intros H. clear I'. induction H as [a b c v (-> & -> & ->) P O|a b c a' b' c' v H IH S P O].
    + rewrite <- (pixel_znth _ _ _ _ P) in O. apply lk_refl; [apply inside_range; exact I|exact O].
    + pose proof (joined_inside _ _ _ _ _ H) as J. destruct P as (I2 & E). eapply lk_step; [exact IH| |].
      * apply (covers_sym se s Hsy HP). exists a, b, c, a', b', c'. auto 10.
      * unfold znth. rewrite E. exact O.
  - intros H. remember (off x' y' z') as q eqn:Eq. revert x' y' z' I' Eq. induction H as [R O|q r H IH A O]; intros x' y' z' I' Eq.
    + destruct (LoopFacts.voxel_inj s _ _ _ _ _ _ I I' Eq) as (-> & -> & ->). eapply joined_seed; [auto|apply znth_pixel; exact I|exact O].
    + destruct A as (a & b & c & a' & b' & c' & J & J' & -> & E & S). rewrite Eq in E. destruct (LoopFacts.voxel_inj s _ _ _ _ _ _ I' J' E) as (-> & -> & ->).
      eapply joined_step; [apply (IH a b c J eq_refl)| |apply znth_pixel; exact J'|rewrite <- Eq; exact O]. apply (sees_sym se s); assumption.
Qed.

Lemma has_zone k n (Sp : Z -> Z -> Z -> Prop) (V : Z -> Prop) : (forall q, V q -> 0 <= q < N) -> (forall x y z, Sp x y z -> inside s x y z) ->
  (forall x y z, inside s x y z -> (Sp x y z <-> V (off x y z))) -> (zone_has k n Sp <-> set_has s k n V).
Proof using Hs.
  intros HV HS H.
  assert (co_off : forall x y z, inside s x y z -> co s (off x y z) = (x, y, z)).
  { intros x y z I. unfold co. rewrite coords_voxel by (exact I || apply int_small; exact Hs). reflexivity. }
  assert (co_in : forall q, 0 <= q < N -> exists x y z, inside s x y z /\ q = off x y z /\ co s q = (x, y, z)) by (intros q Hq; apply co_voxel; assumption).
  unfold zone_has, set_has. destruct k.
  - split; intros (l & ND & L & A).
    + exists (map (fun '(x, y, z) => off x y z) l). split; [|split; [rewrite map_length; exact L|]].
      * assert (forall x y z, In (x, y, z) l -> inside s x y z) as Il by (intros x y z Hi; apply HS, A, Hi). clear - ND Il. induction l as [|((x & y) & z) l IH]; [constructor|].
        cbn. apply NoDup_cons_iff in ND as (Nx & ND). constructor; [|apply IH; [exact ND|intros a b c Hi; apply Il; right; exact Hi]].
        intros Hi. apply in_map_iff in Hi as (((a & b) & c) & E & Hi). apply Nx. destruct (LoopFacts.voxel_inj s a b c x y z) as (-> & -> & ->); [apply Il; right; exact Hi|apply Il; left; reflexivity|exact E|exact Hi].
      * intros q Hq. apply in_map_iff in Hq as (((x & y) & z) & <- & Hq). apply H; [apply HS|]; apply A; exact Hq.
    + exists (map (co s) l). split; [|split; [rewrite map_length; exact L|]].
      * assert (forall q, In q l -> 0 <= q < N) as Il by (intros q Hq; apply HV, A, Hq). clear - ND Il co_in. induction l as [|q l IH]; [constructor|].
        cbn. apply NoDup_cons_iff in ND as (Nx & ND). constructor; [|apply IH; [exact ND|intros p Hi; apply Il; right; exact Hi]].
        intros Hi. apply in_map_iff in Hi as (p & E & Hi). destruct (co_in p (Il p (or_intror Hi))) as (x & y & z & _ & E1 & E2). destruct (co_in q (Il q (or_introl eq_refl))) as (x' & y' & z' & _ & E3 & E4).
        rewrite E2, E4 in E. injection E as -> -> ->. rewrite <- E3 in E1. congruence.
      * intros x y z Hi. apply in_map_iff in Hi as (q & E & Hi). specialize (A q Hi). destruct (co_in q (HV q A)) as (x' & y' & z' & I & E1 & E2). rewrite E2 in E. injection E as -> -> ->. apply H; [exact I|]. rewrite <- E1. exact A.
  - split.
    + intros (x & y & z & x' & y' & z' & A & B & L). exists (off x y z), (off x' y' z'). pose proof (HS _ _ _ A). pose proof (HS _ _ _ B). split; [apply H; assumption|]. split; [apply H; assumption|].
      unfold coord. rewrite !co_off by assumption. exact L.
    + intros (q & q' & A & B & L). destruct (co_in q (HV q A)) as (x & y & z & I & -> & E2). destruct (co_in q' (HV q' B)) as (x' & y' & z' & I' & -> & E2'). exists x, y, z, x', y', z'.
      split; [apply H; assumption|]. split; [apply H; assumption|]. unfold coord in L. rewrite E2, E2' in L. exact L.
  - split.
    + intros (x & y & z & x' & y' & z' & A & B & L). exists (off x y z), (off x' y' z'). pose proof (HS _ _ _ A). pose proof (HS _ _ _ B). split; [apply H; assumption|]. split; [apply H; assumption|].
      unfold coord. rewrite !co_off by assumption. exact L.
    + intros (q & q' & A & B & L). destruct (co_in q (HV q A)) as (x & y & z & I & -> & E2). destruct (co_in q' (HV q' B)) as (x' & y' & z' & I' & -> & E2'). exists x, y, z, x', y', z'.
      split; [apply H; assumption|]. split; [apply H; assumption|]. unfold coord in L. rewrite E2, E2' in L. exact L.
Qed.

Lemma zone_set k n h x y z : inside s x y z -> (zone_has k n (upper_zone se im h x y z) <-> set_has s k n (lk (pixs im) N (covers se s) h (off x y z))).
Proof using W Hs HP Hsy.
  intros I. apply has_zone.
  - intros q Hq. apply (lk_end (pixs im) N (covers se s) (covers_sym se s Hsy HP) (adj_rng' se s) _ _ _ Hq).
  - intros a b c. apply joined_inside.
  - intros a b c J. apply zone_lk; assumption.
Qed.
End translate.

Theorem attributeOpen_spec fuel t k se im imOut n : tree_ok t se im -> sz imOut = sz im -> (2 * length (pixs im) + 1 <= fuel)%nat ->
  exists out, attributeOpen fuel t k se im imOut n = Some (Some (1, out)) /\ attr_opened k n se im out.
Proof.
  intros (Ht & W & Ty & Hs & Hpt & HP & Hsy & Hc & HN) Es F. pose proof W as (Wd & Wl).
  assert (Hty : forall p, 0 <= p < dw (sz im) * dh (sz im) * dd (sz im) -> 0 <= znth 0 (pixs im) p <= tmax t).
  { intros p Hp. rewrite <- Wl in Hp. destruct (rd_in_range (pixs im) p Hp) as (v & E). pose proof (proj1 (Forall_forall _ _) Ty v (rd_In _ _ _ E)) as Tv.
    unfold znth. rewrite E. unfold inty in Tv. pose proof (u816 t Ht) as (A & _). rewrite A in Tv. exact Tv. }
  destruct (open_offsets t se (sz im) (pixs im) k n Ht Hty Wl Hs Hpt HP Hsy HN) with (fuel := fuel) (imOut := imOut) as (mv & out & E & Lo & (pm & Rm & Em) & Hmin & Hall); try assumption.
  - intros V (p & Rp & Vp) Hcl q Rq. destruct (LoopFacts.voxel_surj (sz im) p Wd Rp) as (x & y & z & I & ->). destruct (LoopFacts.voxel_surj (sz im) q Wd Rq) as (x' & y' & z' & I' & ->).
    specialize (Hc x y z x' y' z' I I'). clear I' Rq. induction Hc as [a b c v (-> & -> & ->) P O|a b c a' b' c' v H IH S P O]; [exact Vp|].
    apply (Hcl _ _ IH). apply (covers_sym se (sz im) Hsy HP). exists a, b, c, a', b', c'. split; [apply P|]. split; [apply (joined_inside se im _ _ _ _ _ H)|]. auto.
  - exists (Img (sz im) out). split; [destruct im as [s0 px0]; exact E|]. split; [reflexivity|]. split; [split; [exact Wd|cbn [pixs sz]; rewrite Lo; exact Wl]|].
    exists mv. split.
    + split; [|intros x y z v Hv; rewrite <- (pixel_znth im _ _ _ _ Hv); apply Hmin, inside_range, Hv].
      destruct (LoopFacts.voxel_surj (sz im) pm Wd Rm) as (x & y & z & I & ->). exists x, y, z. rewrite <- Em. apply znth_pixel; assumption.
    + intros x y z v o Hv Ho. assert (inside (sz im) x y z) as I by apply Hv. destruct (Hall _ (inside_range _ _ _ _ I)) as (A & B & C).
      rewrite (pixel_znth im _ _ _ _ Hv) in A, C.
      assert (znth 0 out (voxel_offset (dw (sz im)) (dh (sz im)) x y z) = o) as Eo by (destruct Ho as (_ & Ho); cbn [pixs sz] in Ho; unfold znth; rewrite Ho; reflexivity). rewrite Eo in A, B, C.
      split; [exact A|]. split; [destruct B as [B|B]; [auto|right; apply zone_set; assumption]|].
      intros h Hh Hz. apply (C h Hh). apply (zone_set se im W Hs HP Hsy k n h x y z I). exact Hz.
Qed.

(** ** What follows *)
Lemma zone_has_mono k n (S S' : Z -> Z -> Z -> Prop) : (forall x y z, S x y z -> S' x y z) -> zone_has k n S -> zone_has k n S'.
Proof.
  intros H. unfold zone_has. destruct k.
  - intros (l & A & B & C). exists l. split; [exact A|]. split; [exact B|]. intros x y z Hi. apply H, C, Hi.
  - intros (x & y & z & x' & y' & z' & A & B & C). exists x, y, z, x', y', z'. auto.
  - intros (x & y & z & x' & y' & z' & A & B & C). exists x, y, z, x', y', z'. auto.
Qed.
Lemma zone_has_less k n n' (S : Z -> Z -> Z -> Prop) : n' <= n -> zone_has k n S -> zone_has k n' S.
Proof.
  intros H. unfold zone_has. destruct k.
  - intros (l & A & B & C). exists l. split; [exact A|]. split; [lia|exact C].
  - intros (x & y & z & x' & y' & z' & A & B & C). exists x, y, z, x', y', z'. split; [exact A|]. split; [exact B|lia].
  - intros (x & y & z & x' & y' & z' & A & B & C). exists x, y, z, x', y', z'. split; [exact A|]. split; [exact B|lia].
Qed.

Definition img_le (a b : img) : Prop := forall x y z u v, pixel_is a x y z u -> pixel_is b x y z v -> u <= v.

Lemma opened_extensive k n se im out : attr_opened k n se im out -> img_le out im.
Proof. intros (_ & _ & m & _ & H) x y z u v Hu Hv. destruct (H x y z v u Hv Hu) as (A & _). lia. Qed.

Lemma zone_le se im im' h x y z a b c : wf_img im' -> sz im' = sz im -> img_le im im' -> upper_zone se im h x y z a b c -> upper_zone se im' h x y z a b c.
Proof.
  intros W Es L H. unfold upper_zone in *. induction H as [a b c v Sd P O|a b c a' b' c' v H IH S P O].
  - destruct (pixel_exists im' a b c W) as (v' & P'); [rewrite Es; apply P|]. eapply joined_seed; [exact Sd|exact P'|]. specialize (L _ _ _ _ _ P P'). lia.
  - destruct (pixel_exists im' a b c W) as (v' & P'); [rewrite Es; apply P|]. eapply joined_step; [exact IH|exact S|exact P'|]. specialize (L _ _ _ _ _ P P'). lia.
Qed.

Lemma opened_increasing k n se im im' out out' : wf_img im -> wf_img im' -> sz im' = sz im -> img_le im im' ->
  attr_opened k n se im out -> attr_opened k n se im' out' -> img_le out out'.
Proof.
  intros W W' Es L (S1 & Wo & m & M & H) (S2 & Wo' & m' & M' & H') x y z u v Hu Hv.
  assert (inside (sz im) x y z) as I by (rewrite <- S1; apply Hu). destruct (pixel_exists im x y z W I) as (a & Pa).
  destruct (pixel_exists im' x y z W') as (a' & Pa'); [rewrite Es; exact I|]. pose proof (L _ _ _ _ _ Pa Pa') as La.
  destruct (H x y z a u Pa Hu) as (A1 & A2 & _). destruct (H' x y z a' v Pa' Hv) as (B1 & _ & B3).
  destruct (Z_le_dec u v) as [|Q]; [assumption|]. exfalso. destruct A2 as [-> |A2].
  - destruct M' as ((x0 & y0 & z0 & P0) & _). destruct (pixel_exists im x0 y0 z0 W) as (b & Pb); [rewrite <- Es; apply P0|]. pose proof (L _ _ _ _ _ Pb P0). destruct M as (_ & M). specialize (M _ _ _ _ Pb). lia.
  - apply (B3 u ltac:(lia)). eapply zone_has_mono; [|exact A2]. intros a0 b0 c0. apply zone_le; assumption.
Qed.

Lemma opened_unique k n se im out out' : wf_img im -> attr_opened k n se im out -> attr_opened k n se im out' -> out = out'.
Proof.
  intros W H H'. pose proof H as (S1 & Wo & _). pose proof H' as (S2 & Wo' & _).
  apply img_ext; [exact Wo|exact Wo'|congruence|]. intros x y z u Hu.
  assert (inside (sz out') x y z) as I' by (rewrite S2, <- S1; apply Hu). destruct (pixel_exists out' x y z Wo' I') as (v & Hv).
  assert (img_le im im) as L by (intros a b c p q Hp Hq; rewrite (pixel_is_fun _ _ _ _ _ _ Hp Hq); lia).
  pose proof (opened_increasing k n se im im out out' W W eq_refl L H H' _ _ _ _ _ Hu Hv). pose proof (opened_increasing k n se im im out' out W W eq_refl L H' H _ _ _ _ _ Hv Hu).
  assert (u = v) as -> by lia. exact Hv.
Qed.

Lemma joined_trans se ok im x y z x' y' z' a b c : joined se ok (fun p q r => p = x /\ q = y /\ r = z) im x' y' z' ->
  joined se ok (fun p q r => p = x' /\ q = y' /\ r = z') im a b c -> joined se ok (fun p q r => p = x /\ q = y /\ r = z) im a b c.
Proof.
  intros H H'. induction H' as [a b c v (-> & -> & ->) P O|a b c a' b' c' v H' IH S P O]; [exact H|]. eapply joined_step; eassumption.
Qed.

Lemma joined_back se ok im x y z a b c : planar se (sz im) -> symmetric_se se -> joined se ok (fun p q r => p = x /\ q = y /\ r = z) im a b c ->
  joined se ok (fun p q r => p = a /\ q = b /\ r = c) im x y z.
Proof.
  intros HP Hsy H. induction H as [a b c v (-> & -> & ->) P O|a b c a' b' c' v H IH S P O]; [eapply joined_seed; eauto|].
  assert (exists w, pixel_is im a' b' c' w /\ ok w) as (w & Pw & Ow). { destruct H as [? ? ? w ? ? ?|? ? ? ? ? ? w ? ? ? ?]; exists w; auto. }
  eapply joined_trans; [|exact IH]. eapply joined_step; [eapply joined_seed; [split; [reflexivity|auto]|exact P|exact O]| |exact Pw|exact Ow].
  apply (sees_sym se (sz im)); try assumption; [apply Pw|apply P].
Qed.

Lemma opened_idempotent k n se im out out2 : wf_img im -> planar se (sz im) -> symmetric_se se ->
  attr_opened k n se im out -> attr_opened k n se out out2 -> out2 = out.
Proof.
  intros W HP Hsy (S1 & Wo & m & M & H) (S2 & Wo2 & m2 & M2 & H2). apply img_ext; [exact Wo2|exact Wo|exact S2|].
  intros x y z v Hv. assert (inside (sz out) x y z) as I by (rewrite <- S2; apply Hv). destruct (pixel_exists out x y z Wo I) as (u & Hu).
  destruct (H2 x y z u v Hu Hv) as (A1 & A2 & A3). assert (v = u) as ->; [|exact Hu].
  destruct (Z_lt_dec v u) as [Q|]; [|lia]. exfalso. apply (A3 u ltac:(lia)).
  destruct (pixel_exists im x y z W) as (a & Pa); [rewrite <- S1; exact I|]. destruct (H x y z a u Pa Hu) as (B1 & B2 & _).
  assert (m <= m2) as Lm. { destruct M2 as ((x0 & y0 & z0 & P0) & _). destruct (pixel_exists im x0 y0 z0 W) as (b & Pb); [rewrite <- S1; apply P0|]. destruct (H _ _ _ _ _ Pb P0). lia. }
  destruct B2 as [B2|B2]; [lia|].
  assert (forall p q r, upper_zone se im u x y z p q r -> exists w, pixel_is out p q r w /\ u <= w) as Up.
  { intros p q r Hz. pose proof (joined_inside se im _ _ _ _ _ Hz) as Iz. destruct (pixel_exists out p q r Wo) as (w & Pw); [rewrite S1; exact Iz|]. exists w. split; [exact Pw|].
    assert (exists b, pixel_is im p q r b /\ u <= b) as (b & Pb & Lb). { destruct Hz as [? ? ? b ? ? ?|? ? ? ? ? ? b ? ? ? ?]; exists b; auto. }
    destruct (H p q r b w Pb Pw) as (C1 & _ & C3). destruct (Z_le_dec u w) as [|Q']; [assumption|]. exfalso. apply (C3 u ltac:(lia)).
    eapply zone_has_mono; [|exact B2]. intros a0 b0 c0 H0. eapply joined_trans; [apply joined_back; [exact HP|exact Hsy|exact Hz]|exact H0]. }
  eapply zone_has_mono; [|exact B2]. intros p q r Hz. unfold upper_zone in *.
  induction Hz as [p q r b Sd P O|p q r p' q' r' b Hz IH S P O].
  - destruct (Up p q r) as (w & Pw & Lw); [eapply joined_seed; eauto|]. eapply joined_seed; eauto.
  - destruct (Up p q r) as (w & Pw & Lw); [eapply joined_step; eauto|]. eapply joined_step; eauto.
Qed.

Lemma opened_sizes k n n' se im out out' : wf_img im -> n <= n' -> attr_opened k n se im out -> attr_opened k n' se im out' -> img_le out' out.
Proof.
  intros W Hn (S1 & Wo & m & M & H) (S2 & Wo' & m' & M' & H') x y z u v Hu Hv. destruct (pixel_exists im x y z W) as (a & Pa); [rewrite <- S1; apply Hv|].
  destruct (H x y z a v Pa Hv) as (A1 & A2 & A3). destruct (H' x y z a u Pa Hu) as (B1 & B2 & _). destruct (Z_le_dec u v) as [|Q]; [assumption|]. exfalso.
  destruct B2 as [-> |B2].
  - destruct M' as (_ & M'). destruct M as ((x0 & y0 & z0 & P0) & _). specialize (M' _ _ _ _ P0). lia.
  - apply (A3 u ltac:(lia)). eapply zone_has_less; eassumption.
Qed.

Lemma opened_one k n se im out : wf_img im -> n <= 1 -> attr_opened k n se im out -> out = im.
Proof.
  intros W Hn (S1 & Wo & m & M & H). apply img_ext; [exact Wo|exact W|exact S1|]. intros x y z u Hu. destruct (pixel_exists im x y z W) as (a & Pa); [rewrite <- S1; apply Hu|].
  destruct (H x y z a u Pa Hu) as (A1 & _ & A3). destruct (Z_lt_dec u a) as [Q|]; [|assert (u = a) as -> by lia; exact Pa]. exfalso. apply (A3 a ltac:(lia)).
  assert (upper_zone se im a x y z x y z) as Z0 by (eapply joined_seed; [auto|exact Pa|lia]).
  unfold zone_has. destruct k.
  - exists [(x, y, z)]. split; [constructor; [intros []|constructor]|]. split; [cbn; lia|]. intros ? ? ? [E|[]]. injection E as <- <- <-. exact Z0.
  - exists x, y, z, x, y, z. split; [exact Z0|]. split; [exact Z0|lia].
  - exists x, y, z, x, y, z. split; [exact Z0|]. split; [exact Z0|lia].
Qed.
