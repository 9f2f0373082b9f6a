From Verif Require Export Spec.HitOrMissSpec Proofs.GeodesicUses Proofs.GeodesicFilters Proofs.MeasureProofs Proofs.PixelProofs.

(** ** One pair of elements *)
Lemma inv_negative t im : wf_img im -> typed_img t im -> negative t im (pw1 (px_inv t) im).
Proof.
  intros W T. destruct (pw1_spec (px_inv t) im W) as (S & W' & H). split; [exact S|]. split; [exact W'|]. intros x y z u Hu.
  rewrite Z.add_comm, <- px_inv_eq by (eapply typed_is; eassumption). apply H. exact Hu.
Qed.

Lemma negative_fun t im N N' : wf_img im -> negative t im N -> negative t im N' -> N = N'.
Proof.
  intros W (S & W1 & H) (S' & W1' & H'). apply img_ext; [assumption..|congruence|]. intros x y z v Hv.
  destruct (pixel_exists im x y z W) as (u & Hu); [rewrite <- S; apply Hv|]. rewrite (pixel_is_fun N x y z v _ Hv (H _ _ _ _ Hu)). apply H'. exact Hu.
Qed.

Lemma pointwise2_fun f a b r r' : wf_img a -> wf_img b -> pointwise2 f a b r -> pointwise2 f a b r' -> r = r'.
Proof.
  intros Wa Wb (S & T & W & H) (S' & T' & W' & H'). apply img_ext; [assumption..|congruence|]. intros x y z v Hv. pose proof (proj1 Hv) as Hi.
  destruct (pixel_exists a x y z Wa) as (u & Hu); [rewrite <- S; exact Hi|]. destruct (pixel_exists b x y z Wb) as (w & Hw); [rewrite <- T; exact Hi|].
  rewrite (pixel_is_fun r x y z v _ Hv (H _ _ _ _ _ Hu Hw)). apply H'; assumption.
Qed.

Lemma eroded_sz se bv a b : eroded se bv a b -> sz b = sz a /\ wf_img b.
Proof. intros (S & W & _). auto. Qed.
Lemma passes_eroded n se bv a b : wf_img a -> passes n (eroded se bv) a b -> sz b = sz a /\ wf_img b.
Proof.
  intros W. revert b. induction n as [|n IH]; intros b H; cbn in H; [subst; auto|]. destruct H as (m & Hm & H). destruct (IH m Hm) as (S & _).
  apply eroded_sz in H as (S' & W'). split; [congruence|exact W'].
Qed.
Lemma passes_eroded_fun n se bv a b b' : wf_img a -> passes n (eroded se bv) a b -> passes n (eroded se bv) a b' -> b = b'.
Proof. intros W. apply passes_fun; [intros ? ? ?; apply eroded_fun|intros; eapply eroded_sz; eassumption|exact W]. Qed.

Lemma hit_shape t bv c im H : wf_img im -> hit_by t bv c im H -> sz H = sz im /\ wf_img H.
Proof. intros W (N & A & B & _ & _ & HB & (S & _ & WH & _)). destruct (passes_eroded _ _ _ _ _ W HB) as (S' & _). split; [congruence|exact WH]. Qed.
Lemma hit_fun t bv c im H H' : wf_img im -> hit_by t bv c im H -> hit_by t bv c im H' -> H = H'.
Proof.
  intros W (N & A & B & HN & HA & HB & HP) (N' & A' & B' & HN' & HA' & HB' & HP').
  assert (N' = N) by (eapply negative_fun; eassumption). subst N'. pose proof HN as (_ & WN & _).
  assert (A' = A) by (eapply passes_eroded_fun; [exact WN|eassumption..]). subst A'.
  assert (B' = B) by (eapply passes_eroded_fun; [exact W|eassumption..]). subst B'.
  destruct (passes_eroded _ _ _ _ _ WN HA) as (_ & WA). destruct (passes_eroded _ _ _ _ _ W HB) as (_ & WB).
  eapply pointwise2_fun; [exact WB|exact WA|eassumption..].
Qed.

Lemma pw2_spec f g a b : wf_img a -> wf_img b -> sz a = sz b -> (forall x y z u v, pixel_is a x y z u -> pixel_is b x y z v -> f u v = g u v) -> pointwise2 g a b (pw2 f a b).
Proof.
  intros Wa Wb S E. split; [reflexivity|]. split; [exact S|]. split; [apply pw2_wf; assumption|]. intros x y z u v Hu Hv. rewrite <- (E x y z u v Hu Hv). apply pw2_is; assumption.
Qed.

Lemma erode_any junk cs bv se im out : good_img im -> good_se se (sz im) -> (forall k, legal_conf (dh (sz im)) (cs k)) -> wf_img out -> sz out = sz im ->
  exists E, erode junk cs bv se false im out = Some (1, E) /\ passes (Z.to_nat (se_size se)) (eroded se bv) im E.
Proof. intros Gi (HT & Hn & HF & HF' & HP) HL Wo So. apply erode_ok; auto. discriminate. Qed.

Lemma good_sz a b : good_img a -> wf_img b -> sz b = sz a -> good_img b.
Proof. intros (W & N & L) Wb S. split; [exact Wb|]. unfold nonempty in *. rewrite S. split; assumption. Qed.

Lemma hitOrMiss_ok t junk cs bv fg bg im out : good_img im -> typed_img t im -> good_se fg (sz im) -> good_se bg (sz im) ->
  (forall j k, legal_conf (dh (sz im)) (cs j k)) -> wf_img out -> sz out = sz im ->
  exists H, hitOrMiss t junk cs bv fg bg false im out = Some (1, H) /\ hit_by t bv (fg, bg) im H.
Proof.
  intros Gi T Gf Gb HL Wo So. pose proof (proj1 Gi) as W. pose proof (inv_negative t im W T) as HN. pose proof HN as (SN & WN & _).
  unfold hitOrMiss. rewrite same_size_true by congruence. cbn [negb].
  destruct (erode_any junk (cs 0%nat) bv bg (pw1 (px_inv t) im) out) as (A & EA & HA).
  { eapply good_sz; eassumption. } { rewrite SN. exact Gb. } { rewrite SN. apply HL. } { exact Wo. } { congruence. }
  rewrite EA. cbn [option_bind fst snd Z.eqb negb Pos.eqb].
  destruct (erode_any junk (cs 1%nat) bv fg im (pw1 (px_inv t) im)) as (B & EB & HB); [exact Gi|exact Gf|apply HL|exact WN|exact SN|].
  rewrite EB. cbn [option_bind fst snd Z.eqb negb Pos.eqb]. eexists. split; [reflexivity|].
  destruct (passes_eroded _ _ _ _ _ WN HA) as (SA & WA). destruct (passes_eroded _ _ _ _ _ W HB) as (SB & WB).
  exists (pw1 (px_inv t) im), A, B. repeat (split; [assumption|]). apply pw2_spec; [assumption..|congruence|]. intros. apply px_inf_min.
Qed.

(** Values. *)
Lemma typed_pix t im : wf_img im -> (forall x y z v, pixel_is im x y z v -> inty t v) -> typed_img t im.
Proof.
  intros W H. rewrite (img_mk im W). apply typed_mk. intros x y z Hi. destruct (pixel_exists im x y z W Hi) as (v & Hv). rewrite (pxv_is im x y z v Hv). eapply H. exact Hv.
Qed.
Lemma hit_typed t bv c im H : wf_img im -> typed_img t im -> inty t bv -> hit_by t bv c im H -> typed_img t H.
Proof.
  intros W T Tb (N & A & B & HN & HA & HB & HP).
  assert (forall n se a b, wf_img a -> typed_img t a -> passes n (eroded se bv) a b -> typed_img t b) as P.
  { intros n se a b Wa Ta. revert b. induction n as [|n IH]; intros b Hb; cbn in Hb; [subst; exact Ta|]. destruct Hb as (m & Hm & (S & Wb & Hl)).
    destruct (passes_eroded _ _ _ _ _ Wa Hm) as (Sm & Wm). apply typed_pix; [exact Wb|]. intros x y z v Hv. destruct (Hl _ _ _ _ Hv) as ((x' & y' & z' & _ & [R|(_ & ->)]) & _); [|exact Tb].
    eapply typed_is; [apply IH; exact Hm|exact R]. }
  assert (typed_img t N) as TN.
  { destruct HN as (S & WN & HN). apply typed_pix; [exact WN|]. intros x y z v Hv. destruct (pixel_exists im x y z W) as (u & Hu); [rewrite <- S; apply Hv|].
    pose proof (pixel_is_fun _ _ _ _ _ _ Hv (HN _ _ _ _ Hu)). pose proof (typed_is _ _ _ _ _ _ T Hu). unfold inty in *. lia. }
  pose proof HN as (_ & WN & _). pose proof (P _ _ _ _ WN TN HA) as TA. pose proof (P _ _ _ _ W T HB) as TB.
  destruct (passes_eroded _ _ _ _ _ WN HA) as (SA & WA). destruct (passes_eroded _ _ _ _ _ W HB) as (SB & WB). destruct HP as (S1 & S2 & WH & HP).
  apply typed_pix; [exact WH|]. intros x y z v Hv. pose proof (proj1 Hv) as Hi. destruct (pixel_exists B x y z WB) as (b & Hb); [rewrite <- S1; exact Hi|].
  destruct (pixel_exists A x y z WA) as (a & Ha); [rewrite <- S2; exact Hi|]. pose proof (pixel_is_fun _ _ _ _ _ _ Hv (HP _ _ _ _ _ Hb Ha)).
  pose proof (typed_is _ _ _ _ _ _ TA Ha). pose proof (typed_is _ _ _ _ _ _ TB Hb). unfold inty in *. lia.
Qed.

(** ** Binary images *)
Lemma tmin_lt_tmax t : tmin t < tmax t.
Proof. destruct t; cbv; reflexivity. Qed.

(** The erosion of a binary image by an element of size one. *)
Lemma eroded_two se im E lo hi x y z v : wf_img im -> lo < hi -> (forall x y z v, pixel_is im x y z v -> v = lo \/ v = hi) -> eroded se lo im E -> pixel_is E x y z v ->
  (v = hi /\ forall x' y' z', sees se x' y' z' x y z -> pixel_is im x' y' z' hi) \/ (v = lo /\ exists x' y' z', sees se x' y' z' x y z /\ ~ pixel_is im x' y' z' hi).
Proof.
  intros W L B (_ & _ & H) Hv. destruct (H _ _ _ _ Hv) as ((x0 & y0 & z0 & Hs & Hr) & Hm).
  assert (forall x' y' z' u, reads im lo x' y' z' u -> (u = hi /\ pixel_is im x' y' z' hi) \/ (u = lo /\ ~ pixel_is im x' y' z' hi)) as R.
  { intros x' y' z' u [P|(P & ->)].
    - destruct (B _ _ _ _ P); subst u; [right|left]; split; auto. intros P'. pose proof (pixel_is_fun _ _ _ _ _ _ P P'). lia.
    - right. split; [lia|]. intros P'. apply P. apply P'. }
  destruct (R _ _ _ _ Hr) as [(-> & P)|(-> & P)].
  - left. split; [reflexivity|]. intros x' y' z' Hs'. assert (exists u, reads im lo x' y' z' u) as (u & Hu).
    { assert (D : inside (sz im) x' y' z' \/ ~ inside (sz im) x' y' z') by (unfold inside; lia). destruct D as [D|D].
      - destruct (pixel_exists im x' y' z' W D) as (u & Hu). exists u. left. exact Hu.
      - exists lo. right. auto. }
    assert (hi <= u) by (apply Hm; exists x', y', z'; auto). destruct (R _ _ _ _ Hu) as [(_ & P')|(-> & _)]; [exact P'|lia].
  - right. split; [reflexivity|]. exists x0, y0, z0. auto.
Qed.

Lemma hit_binary t c im H : wf_img im -> binary t im -> se_size (fst c) = 1 -> se_size (snd c) = 1 -> hit_by t (tmin t) c im H -> drawn t (matches t c im) (sz im) H.
Proof.
  intros W B S1 S2 HH. destruct (hit_shape _ _ _ _ _ W HH) as (SH & WH). split; [exact SH|]. split; [exact WH|]. intros x y z Hi.
  destruct HH as (N & A & E & HN & HA & HE & HP). rewrite S1 in HE. rewrite S2 in HA. cbn in HA, HE. destruct HA as (? & -> & HA), HE as (? & -> & HE).
  pose proof HN as (SN & WN & HN'). pose proof (tmin_lt_tmax t) as Lt.
  assert (BN : forall x y z v, pixel_is N x y z v -> v = tmin t \/ v = tmax t).
  { intros x1 y1 z1 v Hv. destruct (pixel_exists im x1 y1 z1 W) as (u & Hu); [rewrite <- SN; apply Hv|]. pose proof (pixel_is_fun _ _ _ _ _ _ Hv (HN' _ _ _ _ Hu)).
    destruct (B _ _ _ _ Hu); subst u; [right|left]; lia. }
  assert (NI : forall x y z, pixel_is N x y z (tmax t) <-> pixel_is im x y z (tmin t)).
  { intros x1 y1 z1. split; intros P.
    - destruct (pixel_exists im x1 y1 z1 W) as (u & Hu); [rewrite <- SN; apply P|]. pose proof (pixel_is_fun _ _ _ _ _ _ P (HN' _ _ _ _ Hu)). replace (tmin t) with u by lia. exact Hu.
    - pose proof (HN' _ _ _ _ P) as Q. replace (tmin t + tmax t - tmin t) with (tmax t) in Q by lia. exact Q. }
  destruct (eroded_sz _ _ _ _ HA) as (SA & WA). destruct (eroded_sz _ _ _ _ HE) as (SE & WE). destruct HP as (_ & _ & _ & HP).
  destruct (pixel_exists E x y z WE) as (e & He); [rewrite SE; exact Hi|]. destruct (pixel_exists A x y z WA) as (a & Ha); [rewrite SA, SN; exact Hi|].
  pose proof (HP _ _ _ _ _ He Ha) as Hh.
  destruct (eroded_two _ _ _ _ _ _ _ _ _ WN Lt BN HA Ha) as [(-> & Qa)|(-> & (xa & ya & za & Sa & Qa))];
  destruct (eroded_two _ _ _ _ _ _ _ _ _ W Lt B HE He) as [(-> & Qe)|(-> & (xe & ye & ze & Se & Qe))].
  - left. split; [split; [exact Qe|]|rewrite Z.min_id in Hh; exact Hh]. intros x' y' z' Hs. apply NI. apply Qa. exact Hs.
  - right. split; [|rewrite Z.min_l in Hh by lia; exact Hh]. intros (M & _). apply Qe. apply M. exact Se.
  - right. split; [|rewrite Z.min_r in Hh by lia; exact Hh]. intros (_ & M). apply Qa. apply NI. apply M. exact Sa.
  - right. split; [|rewrite Z.min_id in Hh; exact Hh]. intros (M & _). apply Qe. apply M. exact Se.
Qed.

(** ** Thinning and thickening *)
Lemma comb_shape g im H out : pointwise2 g im H out -> sz out = sz im /\ wf_img out.
Proof. intros (S & _ & W & _). auto. Qed.
Lemma thinned_shape t c im out : thinned t c im out -> sz out = sz im /\ wf_img out.
Proof. intros (H & _ & P). eapply comb_shape. exact P. Qed.
Lemma thickened_shape t c im out : thickened t c im out -> sz out = sz im /\ wf_img out.
Proof. intros (H & _ & P). eapply comb_shape. exact P. Qed.
Lemma comb_fun t g c im o o' : wf_img im -> (exists H, hit_by t (tmin t) c im H /\ pointwise2 g im H o) -> (exists H, hit_by t (tmin t) c im H /\ pointwise2 g im H o') -> o = o'.
Proof.
  intros W (H & HH & P) (H' & HH' & P'). assert (H' = H) by (eapply hit_fun; eassumption). subst H'. destruct (hit_shape _ _ _ _ _ W HH) as (_ & WH).
  eapply pointwise2_fun; [exact W|exact WH|exact P|exact P'].
Qed.
Lemma thinned_fun t c im o o' : wf_img im -> thinned t c im o -> thinned t c im o' -> o = o'.
Proof. apply comb_fun. Qed.
Lemma thickened_fun t c im o o' : wf_img im -> thickened t c im o -> thickened t c im o' -> o = o'.
Proof. apply comb_fun. Qed.

Lemma comb_le t (g : Z -> Z -> Z) c im o : (exists H, hit_by t (tmin t) c im H /\ pointwise2 g im H o) -> wf_img im ->
  forall x y z u v, pixel_is im x y z u -> pixel_is o x y z v -> exists h, v = g u h /\ (typed_img t im -> inty t h).
Proof.
  intros (H & HH & P) W x y z u v Hu Hv. destruct (hit_shape _ _ _ _ _ W HH) as (SH & WH). destruct P as (S & S' & Wo & P).
  destruct (pixel_exists H x y z WH) as (h & Hh); [rewrite SH; apply Hu|]. exists h. split; [exact (pixel_is_fun _ _ _ _ _ _ Hv (P _ _ _ _ _ Hu Hh))|].
  intros T. eapply typed_is; [|exact Hh]. eapply hit_typed; [exact W|exact T|apply inty_min|exact HH].
Qed.
Lemma thinned_le t c im o : wf_img im -> thinned t c im o -> le_img o im.
Proof. intros W Ht x y z u v Hu Hv. destruct (comb_le _ _ _ _ _ Ht W _ _ _ _ _ Hv Hu) as (h & -> & _). lia. Qed.
Lemma thickened_ge t c im o : wf_img im -> thickened t c im o -> le_img im o.
Proof. intros W Ht x y z u v Hu Hv. destruct (comb_le _ _ _ _ _ Ht W _ _ _ _ _ Hu Hv) as (h & -> & _). lia. Qed.
Lemma thinned_typed t c im o : wf_img im -> typed_img t im -> thinned t c im o -> typed_img t o.
Proof.
  intros W T Ht. destruct (thinned_shape _ _ _ _ Ht) as (So & Wo). apply typed_pix; [exact Wo|]. intros x y z v Hv. destruct (pixel_exists im x y z W) as (u & Hu); [rewrite <- So; apply Hv|].
  destruct (comb_le _ _ _ _ _ Ht W _ _ _ _ _ Hu Hv) as (h & -> & Th). specialize (Th T). pose proof (typed_is _ _ _ _ _ _ T Hu). unfold inty in *. lia.
Qed.
Lemma thickened_typed t c im o : wf_img im -> typed_img t im -> thickened t c im o -> typed_img t o.
Proof.
  intros W T Ht. destruct (thickened_shape _ _ _ _ Ht) as (So & Wo). apply typed_pix; [exact Wo|]. intros x y z v Hv. destruct (pixel_exists im x y z W) as (u & Hu); [rewrite <- So; apply Hv|].
  destruct (comb_le _ _ _ _ _ Ht W _ _ _ _ _ Hu Hv) as (h & -> & Th). specialize (Th T). pose proof (typed_is _ _ _ _ _ _ T Hu). unfold inty in *. lia.
Qed.

Lemma thinned_binary t c im o : wf_img im -> binary t im -> se_size (fst c) = 1 -> se_size (snd c) = 1 -> thinned t c im o ->
  drawn t (fun x y z => pixel_is im x y z (tmax t) /\ ~ matches t c im x y z) (sz im) o.
Proof.
  intros W B S1 S2 Ht. destruct (thinned_shape _ _ _ _ Ht) as (So & Wo). split; [exact So|]. split; [exact Wo|]. intros x y z Hi. destruct Ht as (H & HH & (_ & _ & _ & P)).
  destruct (hit_binary t c im H W B S1 S2 HH) as (_ & _ & D). destruct (pixel_exists im x y z W Hi) as (u & Hu). pose proof (tmin_lt_tmax t).
  destruct (D x y z Hi) as [(M & Hh)|(M & Hh)]; pose proof (P _ _ _ _ _ Hu Hh) as Ho; destruct (B _ _ _ _ Hu); subst u.
  - right. split; [tauto|]. replace (Z.min _ _) with (tmin t) in Ho by lia. exact Ho.
  - right. split; [tauto|]. replace (Z.min _ _) with (tmin t) in Ho by lia. exact Ho.
  - right. split; [intros (Q & _); pose proof (pixel_is_fun _ _ _ _ _ _ Q Hu); lia|]. replace (Z.min _ _) with (tmin t) in Ho by lia. exact Ho.
  - left. split; [auto|]. replace (Z.min _ _) with (tmax t) in Ho by lia. exact Ho.
Qed.
Lemma thickened_binary t c im o : wf_img im -> binary t im -> se_size (fst c) = 1 -> se_size (snd c) = 1 -> thickened t c im o ->
  drawn t (fun x y z => pixel_is im x y z (tmax t) \/ matches t c im x y z) (sz im) o.
Proof.
  intros W B S1 S2 Ht. destruct (thickened_shape _ _ _ _ Ht) as (So & Wo). split; [exact So|]. split; [exact Wo|]. intros x y z Hi. destruct Ht as (H & HH & (_ & _ & _ & P)).
  destruct (hit_binary t c im H W B S1 S2 HH) as (_ & _ & D). destruct (pixel_exists im x y z W Hi) as (u & Hu). pose proof (tmin_lt_tmax t).
  destruct (D x y z Hi) as [(M & Hh)|(M & Hh)]; pose proof (P _ _ _ _ _ Hu Hh) as Ho; destruct (B _ _ _ _ Hu); subst u.
  - left. split; [tauto|]. replace (Z.max _ _) with (tmax t) in Ho by lia. exact Ho.
  - left. split; [tauto|]. replace (Z.max _ _) with (tmax t) in Ho by lia. exact Ho.
  - right. split; [intros [Q|Q]; [pose proof (pixel_is_fun _ _ _ _ _ _ Q Hu); lia|tauto]|]. replace (Z.max _ _) with (tmin t) in Ho by lia. exact Ho.
  - left. split; [auto|]. replace (Z.max _ _) with (tmax t) in Ho by lia. exact Ho.
Qed.

Lemma thin_ok t junk cs fg bg im out : good_img im -> typed_img t im -> good_se fg (sz im) -> good_se bg (sz im) ->
  (forall j k, legal_conf (dh (sz im)) (cs j k)) -> sz out = sz im ->
  exists R, thin t junk cs fg bg im out = Some (1, R) /\ thinned t (fg, bg) im R.
Proof.
  intros Gi T Gf Gb HL So. unfold thin. rewrite same_size_true by congruence. cbn [negb]. pose proof (proj1 Gi) as W.
  destruct (hitOrMiss_ok t junk cs (tmin t) fg bg im (new_img junk im)) as (H & E & HH); auto; [apply wf_junk; exact W|].
  rewrite E. cbn [option_bind fst snd Z.eqb negb Pos.eqb]. eexists. split; [reflexivity|]. exists H. split; [exact HH|].
  destruct (hit_shape _ _ _ _ _ W HH) as (SH & WH). assert (TH : typed_img t H) by (eapply hit_typed; [exact W|exact T|apply inty_min|exact HH]).
  destruct (inv_negative t H WH TH) as (SN & WN & HN). split; [reflexivity|]. split; [symmetry; exact SH|]. split; [apply pw2_wf; [exact W|exact WN|congruence]|].
  intros x y z u v Hu Hv. rewrite <- px_inf_min. apply pw2_is; [exact Hu|apply HN; exact Hv|congruence].
Qed.
Lemma thick_ok t junk cs fg bg im out : good_img im -> typed_img t im -> good_se fg (sz im) -> good_se bg (sz im) ->
  (forall j k, legal_conf (dh (sz im)) (cs j k)) -> sz out = sz im ->
  exists R, thick t junk cs fg bg im out = Some (1, R) /\ thickened t (fg, bg) im R.
Proof.
  intros Gi T Gf Gb HL So. unfold thick. rewrite same_size_true by congruence. cbn [negb]. pose proof (proj1 Gi) as W.
  destruct (hitOrMiss_ok t junk cs (tmin t) fg bg im (new_img junk im)) as (H & E & HH); auto; [apply wf_junk; exact W|].
  rewrite E. cbn [option_bind fst snd Z.eqb negb Pos.eqb]. eexists. split; [reflexivity|]. exists H. split; [exact HH|].
  destruct (hit_shape _ _ _ _ _ W HH) as (SH & WH). apply pw2_spec; [assumption..|congruence|]. intros. apply px_sup_max.
Qed.

(** ** Lists of elements *)
Section Lists.
Context (t : ity) (R : compse -> img -> img -> Prop) (f : nat -> strelt -> strelt -> img -> img -> option (Z * img)) (s : dims).
Context (R_shape : forall c a b, R c a b -> sz b = sz a /\ wf_img b) (R_fun : forall c a b b', wf_img a -> R c a b -> R c a b' -> b = b').
Context (R_typed : forall c a b, wf_img a -> typed_img t a -> R c a b -> typed_img t b).
Context (f_ok : forall k c a o, good_img a -> sz a = s -> typed_img t a -> good_comp s c -> sz o = s -> exists b, f k (fst c) (snd c) a o = Some (1, b) /\ R c a b).

Lemma pass_list_ok l : forall k a, good_img a -> sz a = s -> typed_img t a -> Forall (good_comp s) l -> exists b, pass_list f k l a = Some (1, b) /\ chained R l a b.
Proof.
  induction l as [|c l IH]; intros k a Ga Sa Ta Hl; cbn [pass_list chained]; [exists a; auto|]. apply Forall_cons_iff in Hl as (Hc & Hl).
  destruct c as (fg, bg). destruct (f_ok k (fg, bg) a a) as (b & E & HR); auto. cbn [fst snd] in E. rewrite E. cbn [option_bind fst snd Z.eqb negb Pos.eqb].
  destruct (R_shape _ _ _ HR) as (Sb & Wb). destruct (IH (S k) b) as (b' & E' & HC); [eapply good_sz; eassumption|congruence|eapply R_typed; [apply Ga|exact Ta|exact HR]|exact Hl|].
  exists b'. split; [exact E'|]. exists b. auto.
Qed.
Lemma chained_shape l : forall a b, wf_img a -> chained R l a b -> sz b = sz a /\ wf_img b.
Proof.
  induction l as [|c l IH]; intros a b W H; cbn in H; [subst; auto|]. destruct H as (m & Hm & H). destruct (R_shape _ _ _ Hm) as (Sm & Wm). destruct (IH m b Wm H). split; [congruence|assumption].
Qed.
Lemma chained_fun l : forall a b b', wf_img a -> chained R l a b -> chained R l a b' -> b = b'.
Proof.
  induction l as [|c l IH]; intros a b b' W H H'; cbn in H, H'; [congruence|]. destruct H as (m & Hm & H), H' as (m' & Hm' & H').
  assert (m' = m) by (eapply R_fun; eassumption). subst m'. destruct (R_shape _ _ _ Hm) as (Sm & Wm). eapply IH; eassumption.
Qed.
Lemma chained_typed l : forall a b, wf_img a -> typed_img t a -> chained R l a b -> typed_img t b.
Proof.
  induction l as [|c l IH]; intros a b W T H; cbn in H; [subst; auto|]. destruct H as (m & Hm & H). destruct (R_shape _ _ _ Hm) as (Sm & Wm). eapply IH; [exact Wm| |exact H]. exact (R_typed c a m W T Hm).
Qed.
End Lists.

Lemma le_img_refl a : le_img a a.
Proof. intros x y z u v Hu Hv. rewrite (pixel_is_fun _ _ _ _ _ _ Hu Hv). lia. Qed.
Lemma le_img_trans a b c : wf_img b -> sz b = sz a -> le_img a b -> le_img b c -> le_img a c.
Proof. intros W S H H' x y z u v Hu Hv. destruct (pixel_exists b x y z W) as (w & Hw); [rewrite S; apply Hu|]. specialize (H _ _ _ _ _ Hu Hw). specialize (H' _ _ _ _ _ Hw Hv). lia. Qed.
Lemma chained_rel (R : compse -> img -> img -> Prop) (D : img -> img -> Prop) l : (forall c a b, R c a b -> sz b = sz a /\ wf_img b) -> (forall a, D a a) -> (forall a b c, wf_img b -> sz b = sz a -> sz c = sz b -> D a b -> D b c -> D a c) ->
  (forall c a b, wf_img a -> R c a b -> D a b) -> forall a b, wf_img a -> chained R l a b -> D a b.
Proof.
  intros Hsh Hr Ht Hd. induction l as [|c l IH]; intros a b W H; cbn in H; [subst; apply Hr|]. destruct H as (m & Hm & H). destruct (Hsh _ _ _ Hm) as (Sm & Wm).
  apply (Ht a m b Wm Sm); [eapply chained_shape; [exact Hsh|exact Wm|exact H]|eapply Hd; eassumption|eapply IH; eassumption].
Qed.
Lemma thins_le t l a b : wf_img a -> chained (thinned t) l a b -> le_img b a.
Proof.
  apply (chained_rel (thinned t) (fun a b => le_img b a)); [apply thinned_shape|apply le_img_refl| |intros; eapply thinned_le; eassumption].
  intros a' b' c' Wb Sb Sc H H'. apply (le_img_trans c' b' a'); auto.
Qed.
Lemma thicks_ge t l a b : wf_img a -> chained (thickened t) l a b -> le_img a b.
Proof.
  apply (chained_rel (thickened t) le_img); [apply thickened_shape|apply le_img_refl| |intros; eapply thickened_ge; eassumption].
  intros a' b' c' Wb Sb Sc H H'. apply (le_img_trans a' b' c'); auto.
Qed.
Lemma passes_le (D T : img -> img -> Prop) n : (forall a b, wf_img a -> T a b -> sz b = sz a /\ wf_img b) -> (forall a, D a a) -> (forall a b c, wf_img b -> sz b = sz a -> sz c = sz b -> D a b -> D b c -> D a c) ->
  (forall a b, wf_img a -> T a b -> D a b) -> forall a b, wf_img a -> passes n T a b -> D a b /\ sz b = sz a /\ wf_img b.
Proof.
  intros Hsh Hr Ht Hd a b W. revert b. induction n as [|n IH]; intros b H; cbn in H; [subst; auto|]. destruct H as (m & Hm & H). destruct (IH m Hm) as (L & Sm & Wm). destruct (Hsh m b Wm H) as (Sb & Wb).
  split; [|split; [congruence|exact Wb]]. apply (Ht a m b); auto.
Qed.

(** ** Passes until the volume is stable *)
Lemma Zsum_shift k l : Zsum (map (fun v => v - k) l) = Zsum l - k * Z.of_nat (length l).
Proof. induction l as [|a l IH]; [cbn; lia|]. change (Zsum (map (fun v => v - k) (a :: l))) with (a - k + Zsum (map (fun v => v - k) l)). change (Zsum (a :: l)) with (a + Zsum l). rewrite IH. cbn [length]. lia. Qed.

Lemma Zsum_typed t im : wf_img im -> typed_img t im ->
  tmin t * (dw (sz im) * dh (sz im) * dd (sz im)) <= Zsum (pixs im) <= tmax t * (dw (sz im) * dh (sz im) * dd (sz im)).
Proof.
  intros (_ & HL) T. pose proof (Zsum_bound (tmax t - tmin t) (map (fun v => v - tmin t) (pixs im))) as B. rewrite map_length, HL in B. rewrite Zsum_shift, HL in B.
  assert (forall v, In v (map (fun v => v - tmin t) (pixs im)) -> 0 <= v <= tmax t - tmin t) as Hv.
  { intros v Hv. apply in_map_iff in Hv as (u & <- & Hu). pose proof (proj1 (Forall_forall _ _) T u Hu). unfold inty in *. lia. }
  specialize (B Hv). lia.
Qed.

Lemma Zsum_abs_typed t im : wf_img im -> typed_img t im -> Zsum (map Z.abs (pixs im)) <= (tmax t - tmin t) * (dw (sz im) * dh (sz im) * dd (sz im)).
Proof.
  intros (_ & HL) T. pose proof (Zsum_bound (tmax t - tmin t) (map Z.abs (pixs im))) as B. rewrite map_length, HL in B. apply B. intros v Hv.
  apply in_map_iff in Hv as (u & <- & Hu). pose proof (proj1 (Forall_forall _ _) T u Hu) as I. unfold inty in I. assert (tmin t <= 0 <= tmax t) by (destruct t; cbn; lia). lia.
Qed.

Lemma typed_volume t im : wf_img im -> typed_img t im -> exact_volumes t (sz im) -> volume im = Some (Zsum (pixs im)).
Proof. intros W T E. apply volume_ok; [exact W|]. pose proof (Zsum_abs_typed t im W T). unfold exact_volumes in E. lia. Qed.

Lemma le_img_sum a b : wf_img a -> wf_img b -> sz b = sz a -> le_img a b -> Zsum (pixs a) <= Zsum (pixs b) /\ (Zsum (pixs a) = Zsum (pixs b) -> b = a).
Proof.
  intros Wa Wb S L. assert (Z.of_nat (length (pixs a)) = Z.of_nat (length (pixs b))) as EL by (destruct Wa as (_ & ->), Wb as (_ & ->); rewrite S; reflexivity).
  destruct (Zsum_le (pixs a) (pixs b)) as (H1 & H2); [lia| |split; [exact H1|]].
  - intros i u v Hu Hv. rewrite (img_mk a Wa) in Hu. rewrite (img_mk b Wb), S in Hv. destruct (mk_rd _ _ _ _ _ _ (proj1 Wa) Hu Hv) as (x & y & z & Hi & -> & ->).
    destruct (pixel_exists a x y z Wa Hi) as (u' & Hu'). destruct (pixel_exists b x y z Wb) as (v' & Hv'); [rewrite S; exact Hi|].
    rewrite (pxv_is _ _ _ _ _ Hu'), (pxv_is _ _ _ _ _ Hv'). eapply L; eassumption.
  - intros E. specialize (H2 E). destruct a, b; cbn in *. congruence.
Qed.

Section Full.
Context (t : ity) (T : img -> img -> Prop) (pass : nat -> img -> img -> option (Z * img)) (s : dims) (up : bool).
Context (T_shape : forall a b, wf_img a -> T a b -> sz b = sz a /\ wf_img b) (T_fun : forall a b b', wf_img a -> T a b -> T a b' -> b = b').
Context (T_typed : forall a b, wf_img a -> typed_img t a -> T a b -> typed_img t b).
Context (T_le : forall a b, wf_img a -> T a b -> if up then le_img a b else le_img b a).
Context (pass_ok : forall k a o, good_img a -> sz a = s -> typed_img t a -> sz o = s -> exists b, pass k a o = Some (1, b) /\ T a b).
Context (Ev : exact_volumes t s).

(** What the volume can still change. *)
Local Definition rest (v : Z) : Z := if up then tmax t * (dw s * dh s * dd s) - v else v - tmin t * (dw s * dh s * dd s).

Lemma full_loop_ok fuel : forall k a, good_img a -> sz a = s -> typed_img t a -> rest (Zsum (pixs a)) < Z.of_nat fuel ->
  exists n R, full_loop pass fuel k (Zsum (pixs a)) a = Some (Some (1, R)) /\ passes n T a R /\ T R R.
Proof.
  induction fuel as [|fuel IH]; intros k a Ga Sa Ta Hf.
  { exfalso. pose proof (Zsum_typed t a (proj1 Ga) Ta). rewrite Sa in *. unfold rest in Hf. destruct up; lia. }
  cbn [full_loop]. destruct (pass_ok k a a) as (b & E & HT); auto. rewrite E. cbn [option_bind fst snd Z.eqb negb Pos.eqb].
  destruct (T_shape a b (proj1 Ga) HT) as (Sb & Wb). pose proof (T_typed a b (proj1 Ga) Ta HT) as Tb. rewrite (typed_volume t b Wb Tb) by (rewrite Sb, Sa; exact Ev). cbn [option_bind].
  assert (Hs : (Zsum (pixs b) = Zsum (pixs a) -> b = a) /\ rest (Zsum (pixs b)) <= rest (Zsum (pixs a))).
  { pose proof (T_le a b (proj1 Ga) HT) as L. unfold rest. destruct up.
    - destruct (le_img_sum a b (proj1 Ga) Wb Sb L) as (L1 & L2). split; [intros Eq; apply L2; congruence|lia].
    - destruct (le_img_sum b a Wb (proj1 Ga)) as (L1 & L2); [congruence|exact L|]. split; [intros Eq; symmetry; apply L2; congruence|lia]. }
  destruct Hs as (He & Hr). destruct (Z.eqb_spec (Zsum (pixs b)) (Zsum (pixs a))) as [Eq|Ne].
  - specialize (He Eq). subst b. exists O, a. cbn. auto.
  - assert (rest (Zsum (pixs b)) <> rest (Zsum (pixs a))) by (unfold rest; destruct up; lia).
    destruct (IH (S k) b) as (n & R & EL & HP & HF); [eapply good_sz; eassumption|congruence|exact Tb|lia|]. exists (S n), R. split; [exact EL|]. split; [|exact HF].
    clear - HT HP. revert R HP. induction n as [|n IH]; intros R HP; cbn in *; [subst; exists a; auto|]. destruct HP as (m & Hm & HR). exists m. split; [apply IH; exact Hm|exact HR].
Qed.

Lemma full_ok fuel im out : good_img im -> sz im = s -> typed_img t im -> sz out = s -> vol_enough t s fuel ->
  exists n R, full pass fuel im out = Some (Some (1, R)) /\ passes (S n) T im R /\ T R R.
Proof.
  intros Gi Si Ti So Hf. unfold full. rewrite same_size_true by congruence. cbn [negb]. destruct (pass_ok 0%nat im out) as (b & E & HT); auto. rewrite E. cbn [option_bind fst snd Z.eqb negb Pos.eqb].
  destruct (T_shape im b (proj1 Gi) HT) as (Sb & Wb). pose proof (T_typed im b (proj1 Gi) Ti HT) as Tb. rewrite (typed_volume t b Wb Tb) by (rewrite Sb, Si; exact Ev). cbn [option_bind].
  destruct (full_loop_ok fuel 1 b) as (n & R & EL & HP & HF); [eapply good_sz; eassumption|congruence|exact Tb| |].
  { pose proof (Zsum_typed t b Wb Tb) as HZ. rewrite Sb, Si in HZ. unfold vol_enough in Hf. unfold rest. destruct up; nia. }
  exists n, R. split; [exact EL|]. split; [|exact HF].
  clear - HT HP. revert R HP. induction n as [|n IH]; intros R HP; cbn in *; [subst; exists im; auto|]. destruct HP as (m & Hm & HR). exists m. split; [apply IH; exact Hm|exact HR].
Qed.
End Full.

Section Thin.
Context (t : ity) (junk : Z -> Z) (l : list compse) (im out : img) (HC : hom_call t l im out).

Lemma thin_list_any cs a o : good_img a -> sz a = sz im -> typed_img t a -> sz o = sz im -> (forall i j k, legal_conf (dh (sz im)) (cs i j k)) ->
  exists R, thin_list t junk cs l a o = Some (1, R) /\ chained (thinned t) l a R.
Proof.
  intros Ga Sa Ta So HL. destruct HC as (_ & _ & _ & _ & Hl). unfold thin_list. rewrite same_size_true by congruence. cbn [negb].
  apply (pass_list_ok t (thinned t) (fun k => thin t junk (cs k)) (sz im)); auto; [apply thinned_shape|apply thinned_typed|].
  intros k (fg, bg) a' o' Ga' Sa' Ta' (Gf & Gb) So'. cbn [fst snd] in *. apply thin_ok; auto; rewrite Sa'; auto.
Qed.
Lemma thick_list_any cs a o : good_img a -> sz a = sz im -> typed_img t a -> sz o = sz im -> (forall i j k, legal_conf (dh (sz im)) (cs i j k)) ->
  exists R, thick_list t junk cs l a o = Some (1, R) /\ chained (thickened t) l a R.
Proof.
  intros Ga Sa Ta So HL. destruct HC as (_ & _ & _ & _ & Hl). unfold thick_list. rewrite same_size_true by congruence. cbn [negb].
  apply (pass_list_ok t (thickened t) (fun k => thick t junk (cs k)) (sz im)); auto; [apply thickened_shape|apply thickened_typed|].
  intros k (fg, bg) a' o' Ga' Sa' Ta' (Gf & Gb) So'. cbn [fst snd] in *. apply thick_ok; auto; rewrite Sa'; auto.
Qed.


Section FullThin.
Context (cs : nat -> nat -> nat -> nat -> conf) (HL : forall h i j k, legal_conf (dh (sz im)) (cs h i j k)) (Ev : exact_volumes t (sz im)).

Lemma fullThin_ok fuel : vol_enough t (sz im) fuel ->
  exists n R, fullThin t junk cs fuel l im out = Some (Some (1, R)) /\ passes (S n) (chained (thinned t) l) im R /\ chained (thinned t) l R R /\ le_img R im.
Proof.
  intros Hf. pose proof HC as (Gi & Ti & _ & So & Hl). unfold fullThin.
  destruct (full_ok t (chained (thinned t) l) (fun k => thin_list t junk (cs k) l) (sz im) false) with (fuel := fuel) (im := im) (out := out) as (n & R & E & HP & HF); auto.
  - intros a b Wa. apply chained_shape; [apply thinned_shape|exact Wa].
  - intros a b b' Wa Hb Hb'. eapply (chained_fun (thinned t)); [apply thinned_shape|intros c ? ? ?; apply thinned_fun|exact Wa|exact Hb|exact Hb'].
  - intros a b Wa Ta Hc. eapply (chained_typed t (thinned t)); [apply thinned_shape|apply thinned_typed|exact Wa|exact Ta|exact Hc].
  - intros a b. apply thins_le.
  - intros k a o Ga Sa Ta So'. apply thin_list_any; auto.
  - exists n, R. repeat (split; [assumption|]).
    apply (passes_le (fun a b => le_img b a) (chained (thinned t) l) (S n)) with (5 := proj1 Gi) (6 := HP).
    + intros a b Wa. apply chained_shape; [apply thinned_shape|exact Wa].
    + apply le_img_refl.
    + intros a' b' c' Wb Sb Sc H H'. apply (le_img_trans c' b' a'); auto.
    + intros a b. apply thins_le.
Qed.
Lemma fullThick_ok fuel : vol_enough t (sz im) fuel ->
  exists n R, fullThick t junk cs fuel l im out = Some (Some (1, R)) /\ passes (S n) (chained (thickened t) l) im R /\ chained (thickened t) l R R /\ le_img im R.
Proof.
  intros Hf. pose proof HC as (Gi & Ti & _ & So & Hl). unfold fullThick.
  destruct (full_ok t (chained (thickened t) l) (fun k => thick_list t junk (cs k) l) (sz im) true) with (fuel := fuel) (im := im) (out := out) as (n & R & E & HP & HF); auto.
  - intros a b Wa. apply chained_shape; [apply thickened_shape|exact Wa].
  - intros a b b' Wa Hb Hb'. eapply (chained_fun (thickened t)); [apply thickened_shape|intros c ? ? ?; apply thickened_fun|exact Wa|exact Hb|exact Hb'].
  - intros a b Wa Ta Hc. eapply (chained_typed t (thickened t)); [apply thickened_shape|apply thickened_typed|exact Wa|exact Ta|exact Hc].
  - intros a b. apply thicks_ge.
  - intros k a o Ga Sa Ta So'. apply thick_list_any; auto.
  - exists n, R. repeat (split; [assumption|]).
    apply (passes_le le_img (chained (thickened t) l) (S n)) with (5 := proj1 Gi) (6 := HP).
    + intros a b Wa. apply chained_shape; [apply thickened_shape|exact Wa].
    + apply le_img_refl.
    + intros a' b' c' Wb Sb Sc H H'. apply (le_img_trans a' b' c'); auto.
    + intros a b. apply thicks_ge.
Qed.
End FullThin.
End Thin.
