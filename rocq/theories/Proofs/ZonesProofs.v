(** lblSkiz: influence zones. *)
From Verif Require Export Spec.ZonesSpec Proofs.GeodesicIter Proofs.GeodesicUses Proofs.MorphTheorems.
From Verif Require Import Proofs.PixelProofs.

Lemma typed_at t im x y z v : typed_img t im -> pixel_is im x y z v -> inty t v.
Proof. intros T (_ & R). unfold typed_img in T. rewrite Forall_forall in T. apply T. eapply rd_In. exact R. Qed.

Lemma typed_all t im : wf_img im -> (forall x y z v, pixel_is im x y z v -> inty t v) -> typed_img t im.
Proof.
  intros W H. unfold typed_img. rewrite Forall_forall. intros v Hv. apply In_rd in Hv as (i & Hr & R).
  destruct W as (Wd & L). destruct (voxel_surj (sz im) i Wd) as (x & y & z & Hi & E); [lia|].
  apply (H x y z). split; [exact Hi|]. rewrite <- E. exact R.
Qed.

Lemma new_wf_img junk im : wf_img im -> wf_img (new_img junk im).
Proof.
  intros W. split; [apply W|]. cbn. rewrite map_length, zseq_length. destruct W as ((A & B & C) & _). unfold pixelCount, lineCount.
  rewrite Z2Nat.id; [apply Z.mul_shuffle0 || ring|]. repeat apply Z.mul_nonneg_nonneg; assumption.
Qed.

Section Skiz.
Context (t : ity) (se : strelt) (L M : img).
Context (Ht : t = UINT8 \/ t = UINT16).
Context (GL : good_img L) (WM : wf_img M) (SM : sz M = sz L) (TL : typed_img t L) (TM : typed_img t M).
Context (HT : typed_se se) (H1 : se_size se = 1) (HF : fits se (sz L)).
Notation arr := (arrives se L M).
Notation mx := (tmax t).

Lemma tmin0 : tmin t = 0.
Proof using Ht. clear - Ht. destruct Ht as [-> | ->]; reflexivity. Qed.
Lemma mx_pos : 0 < mx < 65536.
Proof using Ht. clear - Ht. destruct Ht as [-> | ->]; cbn; lia. Qed.
Lemma inty_u v : inty t v <-> 0 <= v <= mx.
Proof using Ht. clear - Ht. unfold inty. rewrite tmin0. reflexivity. Qed.

Lemma arr_label n x y z l : arr n x y z l -> 0 < l <= mx.
Proof using Ht TL.
  clear - Ht TL. intros H. induction H as [x y z l P N|]; [|assumption]. pose proof (typed_at _ _ _ _ _ _ TL P) as Q. apply inty_u in Q. lia.
Qed.
Lemma arr_inside n x y z l : arr n x y z l -> inside (sz L) x y z.
Proof using. clear. intros H. destruct H as [x y z l P N|]; [apply P|assumption]. Qed.

(** One turn. *)
Definition turned (A B A' B' : img) : Prop :=
  sz A' = sz L /\ sz B' = sz L /\ wf_img A' /\ wf_img B' /\ typed_img t A' /\ typed_img t B' /\
  forall x y z a b m a' b', pixel_is A x y z a -> pixel_is B x y z b -> pixel_is M x y z m -> pixel_is A' x y z a' -> pixel_is B' x y z b' ->
    (m = 0 \/ a + b = mx) /\ a' = a /\ b' = b \/
    m <> 0 /\ a + b <> mx /\ exists u v, greatest (dil_values se 0 A x y z) u /\ greatest (dil_values se 0 B x y z) v /\ a' = Z.max a u /\ b' = Z.max b v.

Lemma thresh_sum a b : inty t a -> inty t b -> (px_thresh (tmin t) (mx - 1) mx (tmin t) (px_addNoSat t a b) = 0 <-> a + b = mx) /\
  (a + b <> mx -> px_thresh (tmin t) (mx - 1) mx (tmin t) (px_addNoSat t a b) = mx).
Proof using Ht.
  clear - Ht. unfold inty, px_thresh, px_addNoSat, wrap. destruct Ht as [-> | ->]; cbn [tmin tmax is_signed nbits]; intros A B.
  - change (2 ^ 8) with 256. change (2 ^ 8 - 1) with 255 in *. pose proof (Z.mod_pos_bound (a + b) 256 ltac:(lia)). pose proof (Z.div_mod (a + b) 256 ltac:(lia)).
    assert (0 <= (a + b) / 256 < 2) by (split; [apply Z.div_pos; lia|apply Z.div_lt_upper_bound; lia]).
    destruct ((a + b) mod 256 >=? 0) eqn:E1, ((a + b) mod 256 <=? 256 - 1 - 1) eqn:E2; cbn [andb]; lia.
  - change (2 ^ 16) with 65536. change (2 ^ 16 - 1) with 65535 in *. pose proof (Z.mod_pos_bound (a + b) 65536 ltac:(lia)). pose proof (Z.div_mod (a + b) 65536 ltac:(lia)).
    assert (0 <= (a + b) / 65536 < 2) by (split; [apply Z.div_pos; lia|apply Z.div_lt_upper_bound; lia]).
    destruct ((a + b) mod 65536 >=? 0) eqn:E1, ((a + b) mod 65536 <=? 65536 - 1 - 1) eqn:E2; cbn [andb]; lia.
Qed.

Lemma elem_dilate junk cs X out : (forall k, legal_conf (dh (sz L)) (cs k)) -> good_img X -> sz X = sz L -> wf_img out -> sz out = sz L ->
  exists D, dilate junk cs (tmin t) se false X out = Some (1, D) /\ dilated se 0 X D.
Proof using Ht HT H1 HF.
  intros HL GX SX Wo So. rewrite <- SX in HL, HF, So.
  destruct (dilate_ok junk cs (tmin t) se false X out GX Wo So) as (D & E & P); [discriminate|exact HL|exact HT|lia|exact HF|].
  exists D. split; [exact E|]. rewrite H1 in P. change (Z.to_nat 1) with 1%nat in P. apply (proj1 (passes_one _ _ _)) in P. rewrite tmin0 in P. exact P.
Qed.

Lemma good_sz X : wf_img X -> sz X = sz L -> good_img X.
Proof using GL. intros W S. destruct GL as (_ & N & B). split; [exact W|]. unfold nonempty in *. rewrite S. auto. Qed.

Lemma greatest_typed X x y z u : sz X = sz L -> typed_img t X -> greatest (dil_values se 0 X x y z) u -> inty t u.
Proof using Ht.
  intros S T ((x' & y' & z' & _ & [P | (_ & ->)]) & _); [exact (typed_at _ _ _ _ _ _ T P)|]. apply inty_u. pose proof mx_pos. lia.
Qed.

Lemma turn_ok junk cs A B T1 T2 : (forall i j, legal_conf (dh (sz L)) (cs i j)) -> wf_img A -> wf_img B -> wf_img T1 -> wf_img T2 ->
  sz A = sz L -> sz B = sz L -> sz T1 = sz L -> sz T2 = sz L -> typed_img t A -> typed_img t B ->
  exists A' B' T1' T2', skiz_turn t junk cs se M (SK A B T1 T2) = Some (SK A' B' T1' T2') /\ turned A B A' B' /\
    wf_img T1' /\ wf_img T2' /\ sz T1' = sz L /\ sz T2' = sz L.
Proof using Ht GL WM SM TM HT H1 HF.
  intros HL WA WB W1 W2 SA SB S1 S2 TA TB. pose proof mx_pos as Hm.
  destruct (elem_dilate junk (cs 0%nat) A T1 (HL 0%nat) (good_sz A WA SA) SA W1 S1) as (D1 & E1 & (SD1 & WD1 & HD1)).
  destruct (elem_dilate junk (cs 1%nat) B T2 (HL 1%nat) (good_sz B WB SB) SB W2 S2) as (D2 & E2 & (SD2 & WD2 & HD2)).
  unfold skiz_turn. cbn [sk_l1 sk_l2 sk_t1 sk_t2]. rewrite E1. cbn [option_bind]. rewrite E2. cbn [option_bind snd].
  do 4 eexists. split; [reflexivity|].
  set (sum := pw2 px_inf M _).
  assert (SS : sz sum = sz L) by exact SM.
  assert (WS1 : wf_img (pw2 (px_addNoSat t) A B)) by (apply pw2_wf; auto; congruence).
  assert (WS : wf_img sum). { apply pw2_wf; [exact WM|apply pw1_spec; exact WS1|cbn; congruence]. }
  assert (Psum : forall x y z a b m, pixel_is A x y z a -> pixel_is B x y z b -> pixel_is M x y z m ->
    pixel_is sum x y z (px_inf m (px_thresh (tmin t) (mx - 1) mx (tmin t) (px_addNoSat t a b)))).
  { intros x y z a b m PA PB PM. apply pw2_is; [exact PM| |cbn; congruence]. apply pw1_spec; [exact WS1|]. apply pw2_is; auto. congruence. }
  assert (WT1 : wf_img (pw2 px_mask D1 sum)) by (apply pw2_wf; auto; congruence).
  assert (WT2 : wf_img (pw2 px_mask D2 sum)) by (apply pw2_wf; auto; congruence).
  assert (WA' : wf_img (pw2 px_sup A (pw2 px_mask D1 sum))) by (apply pw2_wf; auto; cbn; congruence).
  assert (WB' : wf_img (pw2 px_sup B (pw2 px_mask D2 sum))) by (apply pw2_wf; auto; cbn; congruence).
  assert (Hin : forall x y z, inside (sz L) x y z -> exists a b m u v, pixel_is A x y z a /\ pixel_is B x y z b /\ pixel_is M x y z m /\ pixel_is D1 x y z u /\ pixel_is D2 x y z v).
  { intros x y z Hi. destruct (pixel_exists A x y z WA) as (a & PA); [rewrite SA; exact Hi|]. destruct (pixel_exists B x y z WB) as (b & PB); [rewrite SB; exact Hi|].
    destruct (pixel_exists M x y z WM) as (m & PM); [rewrite SM; exact Hi|]. destruct (pixel_exists D1 x y z WD1) as (u & Pu); [rewrite SD1, SA; exact Hi|].
    destruct (pixel_exists D2 x y z WD2) as (v & Pv); [rewrite SD2, SB; exact Hi|]. exists a, b, m, u, v. auto. }
  assert (Key : forall x y z a b m u v, pixel_is A x y z a -> pixel_is B x y z b -> pixel_is M x y z m -> pixel_is D1 x y z u -> pixel_is D2 x y z v ->
    pixel_is (pw2 px_sup A (pw2 px_mask D1 sum)) x y z (if (m =? 0) || (a + b =? mx) then a else Z.max a u) /\
    pixel_is (pw2 px_sup B (pw2 px_mask D2 sum)) x y z (if (m =? 0) || (a + b =? mx) then b else Z.max b v)).
  { intros x y z a b m u v PA PB PM Pu Pv. pose proof (Psum x y z a b m PA PB PM) as PS.
    pose proof (typed_at _ _ _ _ _ _ TA PA) as Ia. pose proof (typed_at _ _ _ _ _ _ TB PB) as Ib.
    destruct (thresh_sum a b Ia Ib) as (Z1 & Z2). apply inty_u in Ia. apply inty_u in Ib.
    pose proof (pw2_is px_sup _ _ x y z _ _ PA (pw2_is px_mask _ _ x y z _ _ Pu PS ltac:(congruence)) ltac:(cbn; congruence)) as R1.
    pose proof (pw2_is px_sup _ _ x y z _ _ PB (pw2_is px_mask _ _ x y z _ _ Pv PS ltac:(congruence)) ltac:(cbn; congruence)) as R2.
    assert (Q : px_inf m (px_thresh (tmin t) (mx - 1) mx (tmin t) (px_addNoSat t a b)) = 0 <-> m = 0 \/ a + b = mx).
    { pose proof (typed_at _ _ _ _ _ _ TM PM) as Im. apply inty_u in Im. unfold px_inf. destruct (Z.eq_dec (a + b) mx) as [Es|Es].
      - rewrite (proj2 Z1 Es). destruct (m <? 0) eqn:E; lia.
      - rewrite (Z2 Es). destruct (m <? mx) eqn:E; lia. }
    unfold px_mask, px_test, nz in R1, R2. set (q := px_inf m _) in *.
    destruct ((m =? 0) || (a + b =? mx)) eqn:E.
    - assert (q = 0) as Eq by (apply Q; lia). rewrite Eq in R1, R2. cbn in R1, R2. unfold px_sup in R1, R2.
      replace (if a >? 0 then a else 0) with a in R1 by (destruct (a >? 0) eqn:?; lia). replace (if b >? 0 then b else 0) with b in R2 by (destruct (b >? 0) eqn:?; lia). auto.
    - assert (q <> 0) as Eq by (intros C; apply Q in C; lia). apply Z.eqb_neq in Eq. rewrite Eq in R1, R2. cbn in R1, R2. unfold px_sup in R1, R2.
      replace (if a >? u then a else u) with (Z.max a u) in R1 by (destruct (a >? u) eqn:?; lia). replace (if b >? v then b else v) with (Z.max b v) in R2 by (destruct (b >? v) eqn:?; lia). auto. }
  split; [|split; [exact WT1|split; [exact WT2|split; cbn; congruence]]]. split; [exact SA|]. split; [exact SB|]. split; [exact WA'|]. split; [exact WB'|].
  assert (Ty : forall x y z a' b', pixel_is (pw2 px_sup A (pw2 px_mask D1 sum)) x y z a' -> pixel_is (pw2 px_sup B (pw2 px_mask D2 sum)) x y z b' -> inty t a' /\ inty t b').
  { intros x y z a' b' PA' PB'. destruct (Hin x y z) as (a & b & m & u & v & PA & PB & PM & Pu & Pv); [rewrite <- SA; apply PA'|].
    destruct (Key _ _ _ _ _ _ _ _ PA PB PM Pu Pv) as (Q1 & Q2). rewrite (pixel_is_fun _ _ _ _ _ _ PA' Q1), (pixel_is_fun _ _ _ _ _ _ PB' Q2).
    pose proof (typed_at _ _ _ _ _ _ TA PA) as Ia. pose proof (typed_at _ _ _ _ _ _ TB PB) as Ib.
    pose proof (greatest_typed _ _ _ _ _ SA TA (HD1 _ _ _ _ Pu)) as Iu. pose proof (greatest_typed _ _ _ _ _ SB TB (HD2 _ _ _ _ Pv)) as Iv.
    rewrite !inty_u in *. destruct ((m =? 0) || (a + b =? mx)); lia. }
  split; [|split].
  - apply typed_all; [exact WA'|]. intros x y z a' PA'. destruct (pixel_exists _ x y z WB') as (b' & PB'); [cbn [sz pw2]; rewrite SB, <- SA; apply PA'|]. apply (Ty _ _ _ _ _ PA' PB').
  - apply typed_all; [exact WB'|]. intros x y z b' PB'. destruct (pixel_exists _ x y z WA') as (a' & PA'); [cbn [sz pw2]; rewrite SA, <- SB; apply PB'|]. apply (Ty _ _ _ _ _ PA' PB').
  - intros x y z a b m a' b' PA PB PM PA' PB'. destruct (Hin x y z) as (a1 & b1 & m1 & u & v & PA1 & PB1 & PM1 & Pu & Pv); [rewrite <- SA; apply PA|].
    destruct (Key _ _ _ _ _ _ _ _ PA PB PM Pu Pv) as (Q1 & Q2). rewrite (pixel_is_fun _ _ _ _ _ _ PA' Q1), (pixel_is_fun _ _ _ _ _ _ PB' Q2).
    destruct ((m =? 0) || (a + b =? mx)) eqn:E; [left; split; [lia|auto]|]. right. split; [lia|]. split; [lia|]. exists u, v. auto.
Qed.

(** The state after [n] turns. *)
Definition after (n : nat) (A B : img) : Prop :=
  forall x y z a b, pixel_is A x y z a -> pixel_is B x y z b ->
    ((forall k l, arr k x y z l -> (n < k)%nat) /\ a = 0 /\ b = 0) \/
    (exists k, (k <= n)%nat /\ at_steps se L M k x y z /\
       (k = n -> greatest (arr k x y z) a /\ least (arr k x y z) (mx - b)) /\
       ((arr k x y z a /\ a + b = mx /\ forall l, arr k x y z l -> l = a) \/
        (mx < a + b /\ (exists i, arr i x y z a) /\ (exists i, arr i x y z (mx - b)) /\ exists l l', l <> l' /\ arr k x y z l /\ arr k x y z l'))).

Lemma at_steps_fun k k' x y z : at_steps se L M k x y z -> at_steps se L M k' x y z -> k = k'.
Proof. intros ((l & A) & B) ((l' & A') & B'). specialize (B _ _ A'). specialize (B' _ _ A). lia. Qed.

Lemma after_start B : sz B = sz L -> (forall x y z a b, pixel_is L x y z a -> pixel_is B x y z b -> (a = 0 /\ b = 0) \/ (a <> 0 /\ b = mx - a)) -> after 0 L B.
Proof using Ht TL.
  intros SB H x y z a b PA PB. assert (U : forall l, arr 0 x y z l -> l = a /\ l <> 0).
  { intros l R. inversion R as [? ? ? ? P N|]; subst. split; [exact (pixel_is_fun _ _ _ _ _ _ P PA)|exact N]. }
  destruct (H _ _ _ _ _ PA PB) as [(-> & ->) | (N & ->)].
  - left. split; [|auto]. intros k l R. destruct k; [|lia]. destruct (U l R). lia.
  - right. exists 0%nat. assert (R : arr 0 x y z a) by (constructor; assumption). split; [lia|]. split; [split; [eauto|lia]|]. split.
    + intros _. replace (mx - (mx - a)) with a by lia. split; (split; [exact R|]; intros u Hu; destruct (U u Hu); lia).
    + left. split; [exact R|]. split; [lia|]. intros l Hl. apply (U l Hl).
Qed.

(** A labelled pixel has been reached. *)
Lemma after_pos n A B x y z a b : after n A B -> pixel_is A x y z a -> pixel_is B x y z b -> (a = 0 /\ b = 0 /\ forall k l, arr k x y z l -> (n < k)%nat) \/
  (0 < a <= mx /\ 0 <= b < mx /\ (exists i, arr i x y z a) /\ (exists i, arr i x y z (mx - b)) /\ exists k, (k <= n)%nat /\ at_steps se L M k x y z /\ (k = n -> greatest (arr k x y z) a /\ least (arr k x y z) (mx - b))).
Proof using Ht TL.
  intros H PA PB. destruct (H _ _ _ _ _ PA PB) as [(U & -> & ->) | (k & Hk & Hn & Hg & C)]; [left; auto|]. right.
  destruct C as [(R & E & U) | (Hm & (i & Ri) & (j & Rj) & _)].
  - pose proof (arr_label _ _ _ _ _ R) as Q. split; [exact Q|]. split; [lia|]. split; [eauto|]. split; [|eauto]. exists k. replace (mx - b) with a by lia. exact R.
  - pose proof (arr_label _ _ _ _ _ Ri) as Q. pose proof (arr_label _ _ _ _ _ Rj) as Q'. split; [exact Q|]. split; [lia|]. split; [eauto|]. split; eauto.
Qed.

Lemma seen_value X x y z u : greatest (dil_values se 0 X x y z) u -> u <> 0 -> exists x' y' z', sees se x y z x' y' z' /\ pixel_is X x' y' z' u.
Proof. intros ((x' & y' & z' & S & [P | (_ & ->)]) & _) N; [eauto|contradiction]. Qed.
Lemma seen_le X x y z u x' y' z' v : greatest (dil_values se 0 X x y z) u -> sees se x y z x' y' z' -> pixel_is X x' y' z' v -> v <= u.
Proof. intros (_ & G) S P. apply G. exists x', y', z'. split; [exact S|left; exact P]. Qed.

Lemma after_step n A B A' B' : sz A = sz L -> sz B = sz L -> wf_img A -> wf_img B -> turned A B A' B' -> after n A B -> after (S n) A' B'.
Proof using Ht WM SM TL.
  intros SA SB WA WB (SA' & SB' & WA' & WB' & _ & _ & HT') IA x y z a' b' PA' PB'.
  assert (Hi : inside (sz L) x y z) by (rewrite <- SA'; apply PA').
  destruct (pixel_exists A x y z WA) as (a & PA); [rewrite SA; exact Hi|]. destruct (pixel_exists B x y z WB) as (b & PB); [rewrite SB; exact Hi|].
  destruct (pixel_exists M x y z WM) as (m & PM); [rewrite SM; exact Hi|].
  assert (Ha : forall q1 q2 q3, inside (sz L) q1 q2 q3 -> exists p r, pixel_is A q1 q2 q3 p /\ pixel_is B q1 q2 q3 r).
  { intros q1 q2 q3 Q. destruct (pixel_exists A q1 q2 q3 WA) as (p & P1); [rewrite SA; exact Q|]. destruct (pixel_exists B q1 q2 q3 WB) as (r & P2); [rewrite SB; exact Q|]. eauto. }
  destruct (HT' _ _ _ _ _ _ _ _ PA PB PM PA' PB') as [(Hno & -> & ->) | (Nm & Ns & u & v & Gu & Gv & -> & ->)].
  - (* not updated *)
    destruct (IA _ _ _ _ _ PA PB) as [(U & -> & ->) | (k & Hk & Hn & Hg & C)].
    + left. split; [|auto]. intros k l R. pose proof (U k l R). destruct (Nat.eq_dec k (S n)) as [-> |]; [|lia]. exfalso.
      inversion R as [|? ? ? ? ? ? ? ? m' R' S' Hi' PM' Nm']; subst. rewrite (pixel_is_fun _ _ _ _ _ _ PM' PM) in Nm'. pose proof mx_pos. lia.
    + right. exists k. split; [lia|]. split; [exact Hn|]. split; [lia|exact C].
  - destruct (IA _ _ _ _ _ PA PB) as [(U & -> & ->) | (k & Hk & Hn & Hg & C)].
    + (* not reached yet *)
      assert (Hpred : forall l, arr (S n) x y z l -> exists x' y' z' p r, sees se x y z x' y' z' /\ pixel_is A x' y' z' p /\ pixel_is B x' y' z' r /\ arr n x' y' z' l /\
                at_steps se L M n x' y' z' /\ greatest (arr n x' y' z') p /\ least (arr n x' y' z') (mx - r)).
      { intros l R. inversion R as [|? ? ? ? x' y' z' ? m' R' S' Hi' PM' Nm']; subst. destruct (Ha x' y' z' (arr_inside _ _ _ _ _ R')) as (p & r & P1 & P2).
        exists x', y', z', p, r. repeat (split; [assumption|]). destruct (after_pos _ _ _ _ _ _ _ _ IA P1 P2) as [(_ & _ & W) | (_ & _ & _ & _ & k & Hk & ((l0 & R0) & H0) & Hg)]; [specialize (W _ _ R'); lia|].
        assert (k = n). { pose proof (U (S k) l0 (arrives_step _ _ _ _ _ _ _ _ _ _ _ _ R0 S' Hi PM Nm)). lia. } subst k. destruct (Hg eq_refl). split; [split; eauto|auto]. }
      assert (Hseen : forall x' y' z' p r, sees se x y z x' y' z' -> pixel_is A x' y' z' p -> pixel_is B x' y' z' r -> p <> 0 \/ r <> 0 ->
                at_steps se L M n x' y' z' /\ greatest (arr n x' y' z') p /\ least (arr n x' y' z') (mx - r)).
      { intros x' y' z' p r S' P1 P2 N. destruct (after_pos _ _ _ _ _ _ _ _ IA P1 P2) as [(-> & -> & _) | (_ & _ & _ & _ & k & Hk & ((l0 & R0) & H0) & Hg)]; [lia|].
        assert (k = n). { pose proof (U (S k) l0 (arrives_step _ _ _ _ _ _ _ _ _ _ _ _ R0 S' Hi PM Nm)). lia. } subst k. destruct (Hg eq_refl). split; [split; eauto|auto]. }
      assert (Hnext : forall x' y' z' l, sees se x y z x' y' z' -> arr n x' y' z' l -> arr (S n) x y z l) by (intros x' y' z' l S' R'; exact (arrives_step _ _ _ _ _ _ _ _ _ _ _ _ R' S' Hi PM Nm)).
      assert (Hu0 : 0 <= u). { destruct Gu as ((x' & y' & z' & S' & [P | (_ & ->)]) & _); [|lia]. destruct (Ha x' y' z') as (p & r & P1 & P2); [rewrite <- SA; apply P|].
        rewrite (pixel_is_fun _ _ _ _ _ _ P P1). destruct (after_pos _ _ _ _ _ _ _ _ IA P1 P2) as [(-> & _) | (Q & _)]; lia. }
      assert (Hv0 : 0 <= v). { destruct Gv as ((x' & y' & z' & S' & [P | (_ & ->)]) & _); [|lia]. destruct (Ha x' y' z') as (p & r & P1 & P2); [rewrite <- SB; apply P|].
        rewrite (pixel_is_fun _ _ _ _ _ _ P P2). destruct (after_pos _ _ _ _ _ _ _ _ IA P1 P2) as [(_ & -> & _) | (_ & Q & _)]; lia. }
      replace (Z.max 0 u) with u by lia. replace (Z.max 0 v) with v by lia.
      destruct (Z.eq_dec u 0) as [-> | Nu].
      * left. split; [|split; [reflexivity|]].
        -- intros k l R. pose proof (U k l R). destruct (Nat.eq_dec k (S n)) as [-> |]; [|lia]. exfalso.
           destruct (Hpred l R) as (x' & y' & z' & p & r & S' & P1 & P2 & R' & _ & (G1 & _) & _). pose proof (seen_le _ _ _ _ _ _ _ _ _ Gu S' P1). pose proof (arr_label _ _ _ _ _ G1). lia.
        -- destruct (Z.eq_dec v 0) as [|Nv]; [assumption|]. exfalso. destruct (seen_value _ _ _ _ _ Gv Nv) as (x' & y' & z' & S' & P2).
           destruct (Ha x' y' z') as (p & r & P1 & P3); [rewrite <- SB; apply P2|]. pose proof (pixel_is_fun _ _ _ _ _ _ P2 P3) as ->.
           destruct (Hseen _ _ _ _ _ S' P1 P3 (or_intror Nv)) as (_ & (G1 & _) & _). pose proof (arr_label _ _ _ _ _ G1). pose proof (seen_le _ _ _ _ _ _ _ _ _ Gu S' P1). lia.
      * destruct (seen_value _ _ _ _ _ Gu Nu) as (x1 & y1 & z1 & S1 & P1). destruct (Ha x1 y1 z1) as (p1 & r1 & P1' & P1b); [rewrite <- SA; apply P1|].
        pose proof (pixel_is_fun _ _ _ _ _ _ P1 P1') as <-. destruct (Hseen _ _ _ _ _ S1 P1 P1b (or_introl Nu)) as (N1 & (G1 & G1') & (L1 & L1')).
        assert (Hv : exists x2 y2 z2, sees se x y z x2 y2 z2 /\ arr n x2 y2 z2 (mx - v)).
        { destruct (Z.eq_dec v 0) as [-> |Nv].
          - exists x1, y1, z1. split; [exact S1|]. pose proof (seen_le _ _ _ _ _ _ _ _ _ Gv S1 P1b). pose proof (arr_label _ _ _ _ _ L1). replace 0 with r1 by lia. exact L1.
          - destruct (seen_value _ _ _ _ _ Gv Nv) as (x2 & y2 & z2 & S2 & P2). destruct (Ha x2 y2 z2) as (p2 & r2 & P2a & P2b); [rewrite <- SB; apply P2|].
            pose proof (pixel_is_fun _ _ _ _ _ _ P2 P2b) as <-. destruct (Hseen _ _ _ _ _ S2 P2a P2 (or_intror Nv)) as (_ & _ & (L2 & _)). eauto. }
        destruct Hv as (x2 & y2 & z2 & S2 & R2).
        assert (Ru : arr (S n) x y z u) by (exact (Hnext _ _ _ _ S1 G1)). assert (Rv : arr (S n) x y z (mx - v)) by (exact (Hnext _ _ _ _ S2 R2)).
        assert (Gr : forall l, arr (S n) x y z l -> mx - v <= l <= u).
        { intros l R. destruct (Hpred l R) as (x' & y' & z' & p & r & S' & Pp & Pr & R' & _ & (_ & G2) & (_ & L2)).
          pose proof (seen_le _ _ _ _ _ _ _ _ _ Gu S' Pp). pose proof (seen_le _ _ _ _ _ _ _ _ _ Gv S' Pr). specialize (G2 _ R'). specialize (L2 _ R'). lia. }
        right. exists (S n). split; [lia|]. split; [split; [eauto|intros k l R; pose proof (U k l R); lia]|]. split.
        -- intros _. split; (split; [assumption|]; intros l R; specialize (Gr l R); lia).
        -- pose proof (Gr _ Ru). destruct (Z.eq_dec (mx - v) u) as [E|E].
           ++ left. split; [exact Ru|]. split; [lia|]. intros l R. specialize (Gr l R). lia.
           ++ right. split; [lia|]. split; [eauto|]. split; [eauto|]. exists u, (mx - v). auto.
    + (* reached before *)
      destruct C as [(R & E & _) | (Hm & (i & Ri) & (j & Rj) & C)]; [contradiction|]. right. exists k. split; [lia|]. split; [exact Hn|]. split; [lia|]. right.
      split; [lia|]. split; [|split; [|exact C]].
      * destruct (Z_le_gt_dec u a) as [Hle|Hgt]; [rewrite Z.max_l by lia; eauto|]. rewrite Z.max_r by lia. pose proof (arr_label _ _ _ _ _ Ri).
        destruct (seen_value _ _ _ _ _ Gu ltac:(lia)) as (x1 & y1 & z1 & S1 & P1). destruct (Ha x1 y1 z1) as (p1 & r1 & P1' & P1b); [rewrite <- SA; apply P1|].
        pose proof (pixel_is_fun _ _ _ _ _ _ P1 P1') as <-. destruct (after_pos _ _ _ _ _ _ _ _ IA P1 P1b) as [(-> & _) | (_ & _ & (i1 & R1) & _)]; [lia|].
        exists (S i1). exact (arrives_step _ _ _ _ _ _ _ _ _ _ _ _ R1 S1 Hi PM Nm).
      * destruct (Z_le_gt_dec v b) as [Hle|Hgt]; [rewrite Z.max_l by lia; eauto|]. rewrite Z.max_r by lia. pose proof (arr_label _ _ _ _ _ Rj).
        destruct (Z.eq_dec v 0) as [->|Nv]; [exfalso; destruct (after_pos _ _ _ _ _ _ _ _ IA PA PB) as [(-> & _) | (_ & Q & _)]; pose proof (arr_label _ _ _ _ _ Ri); lia|].
        destruct (seen_value _ _ _ _ _ Gv Nv) as (x1 & y1 & z1 & S1 & P1). destruct (Ha x1 y1 z1) as (p1 & r1 & P1' & P1b); [rewrite <- SB; apply P1|].
        pose proof (pixel_is_fun _ _ _ _ _ _ P1 P1b) as <-. destruct (after_pos _ _ _ _ _ _ _ _ IA P1' P1) as [(_ & -> & _) | (_ & _ & _ & (i1 & R1) & _)]; [lia|].
        exists (S i1). exact (arrives_step _ _ _ _ _ _ _ _ _ _ _ _ R1 S1 Hi PM Nm).
Qed.

(** When the first image does not change, all the labels have arrived. *)
Definition all_arrived (n : nat) : Prop := forall k x y z l, arr k x y z l -> exists k' l', (k' <= n)%nat /\ arr k' x y z l'.

Lemma stable_arrived n A B A' B' : sz A = sz L -> sz B = sz L -> wf_img A -> wf_img B -> sz A' = sz L -> sz B' = sz L -> wf_img A' -> wf_img B' ->
  after n A B -> after (S n) A' B' -> (forall x y z a a', pixel_is A x y z a -> pixel_is A' x y z a' -> a' = a) -> all_arrived (S n).
Proof using Ht TL.
  intros SA SB WA WB SA' SB' WA' WB' IA IA' E k. induction k as [|k IH]; intros x y z l R; [exists 0%nat, l; split; [lia|exact R]|].
  inversion R as [|? ? ? ? x' y' z' ? m' R' S' Hi PM Nm]; subst. pose proof (arr_inside _ _ _ _ _ R') as Hi'. destruct (IH _ _ _ _ R') as (k0 & l0 & Hk0 & R0).
  destruct (pixel_exists A x' y' z' WA) as (a & PA); [rewrite SA; exact Hi'|]. destruct (pixel_exists B x' y' z' WB) as (b & PB); [rewrite SB; exact Hi'|].
  destruct (pixel_exists A' x' y' z' WA') as (a' & PA'); [rewrite SA'; exact Hi'|]. destruct (pixel_exists B' x' y' z' WB') as (b' & PB'); [rewrite SB'; exact Hi'|].
  pose proof (E _ _ _ _ _ PA PA') as ->.
  destruct (after_pos _ _ _ _ _ _ _ _ IA' PA' PB') as [(_ & _ & U) | (Q & _)]; [specialize (U _ _ R0); lia|].
  destruct (after_pos _ _ _ _ _ _ _ _ IA PA PB) as [(-> & _) | (_ & _ & _ & _ & k1 & Hk1 & ((l1 & R1) & _) & _)]; [lia|].
  exists (S k1), l1. split; [lia|]. exact (arrives_step _ _ _ _ _ _ _ _ _ _ _ _ R1 S' Hi PM Nm).
Qed.

Lemma after_zones n A B : sz A = sz L -> sz B = sz L -> wf_img A -> wf_img B -> typed_img t A -> typed_img t B -> after n A B -> all_arrived n -> zones t se L M A B.
Proof using Ht TL.
  intros SA SB WA WB TA TB IA D. repeat (split; [assumption|]). intros x y z a b PA PB.
  destruct (IA _ _ _ _ _ PA PB) as [(U & -> & ->) | (k & Hk & Hn & Hg & C)].
  - left. split; [|auto]. intros k l R. destruct (D _ _ _ _ _ R) as (k' & l' & Hk' & R'). specialize (U _ _ R'). lia.
  - right. destruct C as [(R & E & U) | (Hm & Ri & Rj & l & l' & N & R & R')].
    + left. exists a. split; [|lia]. exists k. auto.
    + right. split; [exists k, l, l'; auto|]. split; [exact Ri|]. split; [exact Rj|lia].
Qed.

(** The loop. *)
Context (Hsz : dw (sz L) * dh (sz L) * dd (sz L) < 2 ^ 31).
Definition cap : Z := 65535 * (dw (sz L) * dh (sz L) * dd (sz L)).

Lemma sum_bounds X : wf_img X -> sz X = sz L -> typed_img t X -> 0 <= Zsum (pixs X) <= cap /\ volume X = Some (Zsum (pixs X)).
Proof using Ht Hsz.
  intros W S T. assert (forall v, In v (pixs X) -> 0 <= v <= 65535). { intros v Hv. unfold typed_img in T. rewrite Forall_forall in T. specialize (T v Hv). apply inty_u in T. pose proof mx_pos. lia. }
  assert (B : 0 <= Zsum (pixs X) <= cap). { unfold cap. rewrite <- S. pose proof (proj2 W) as Lx. rewrite <- Lx. apply Zsum_bound. assumption. }
  split; [exact B|]. apply volume_ok; [exact W|].
  assert (map Z.abs (pixs X) = pixs X) as ->. { rewrite <- map_id. apply map_ext_in. intros v Hv. specialize (H v Hv). lia. }
  unfold cap in B. lia.
Qed.

Lemma turned_le A B A' B' : sz A = sz L -> sz B = sz L -> wf_img A -> wf_img B -> turned A B A' B' ->
  Zsum (pixs A) <= Zsum (pixs A') /\ (Zsum (pixs A) = Zsum (pixs A') -> forall x y z a a', pixel_is A x y z a -> pixel_is A' x y z a' -> a' = a).
Proof using WM SM.
  intros SA SB WA WB (SA' & SB' & WA' & WB' & _ & _ & HT').
  assert (Hle : forall x y z a a', pixel_is A x y z a -> pixel_is A' x y z a' -> a <= a').
  { intros x y z a a' PA PA'. assert (Hi : inside (sz L) x y z) by (rewrite <- SA; apply PA).
    destruct (pixel_exists B x y z WB) as (b & PB); [rewrite SB; exact Hi|]. destruct (pixel_exists B' x y z WB') as (b' & PB'); [rewrite SB'; exact Hi|].
    destruct (pixel_exists M x y z WM) as (m & PM); [rewrite SM; exact Hi|]. destruct (HT' _ _ _ _ _ _ _ _ PA PB PM PA' PB') as [(_ & -> & _) | (_ & _ & u & v & _ & _ & -> & _)]; lia. }
  destruct (Zsum_le (pixs A) (pixs A')) as (Q1 & Q2).
  - pose proof (proj2 WA). pose proof (proj2 WA'). rewrite SA in *. rewrite SA' in *. lia.
  - intros i a a' Ra Ra'. destruct (voxel_surj (sz A) i (proj1 WA)) as (x & y & z & Hi & E); [rewrite <- (proj2 WA); exact (rd_Some_range _ _ _ Ra)|].
    apply (Hle x y z); [split; [exact Hi|rewrite <- E; exact Ra]|]. split; [rewrite SA', <- SA; exact Hi|]. rewrite SA', <- SA, <- E. exact Ra'.
  - split; [exact Q1|]. intros E x y z a a' (Hi & Ra) (_ & Ra'). rewrite SA', <- SA, <- (Q2 E) in Ra'. congruence.
Qed.

Lemma skiz_loop_ok junk cs : (forall k i j, legal_conf (dh (sz L)) (cs k i j)) -> forall fuel k n A B T1 T2 vol1,
  sz A = sz L -> sz B = sz L -> wf_img A -> wf_img B -> typed_img t A -> typed_img t B -> wf_img T1 -> wf_img T2 -> sz T1 = sz L -> sz T2 = sz L ->
  after n A B -> (Zsum (pixs A) <= vol1 -> all_arrived n) -> cap - Zsum (pixs A) < Z.of_nat fuel ->
  exists st, skiz_loop fuel k t junk cs se M vol1 (Zsum (pixs A)) (SK A B T1 T2) = Some (Some st) /\ zones t se L M (sk_l1 st) (sk_l2 st).
Proof using Ht GL WM SM TL TM HT H1 HF Hsz.
  intros HL. induction fuel as [|fuel IH]; intros k n A B T1 T2 vol1 SA SB WA WB TA TB W1 W2 S1 S2 IA D Hf; [pose proof (sum_bounds A WA SA TA); lia|]. cbn [skiz_loop].
  destruct (vol1 <? Zsum (pixs A)) eqn:E; [|exists (SK A B T1 T2); split; [reflexivity|]; apply (after_zones n); auto; apply D; lia].
  destruct (turn_ok junk (cs k) A B T1 T2 (HL k) WA WB W1 W2 SA SB S1 S2 TA TB) as (A' & B' & T1' & T2' & Et & Tu & W1' & W2' & S1' & S2'). rewrite Et. cbn [option_bind sk_l1].
  pose proof (turned_le A B A' B' SA SB WA WB Tu) as (Le & Eq). pose proof (after_step n A B A' B' SA SB WA WB Tu IA) as IA'.
  destruct Tu as (SA' & SB' & WA' & WB' & TA' & TB' & _). destruct (sum_bounds A' WA' SA' TA') as (Bd & ->). cbn [option_bind].
  destruct (Z.eq_dec (Zsum (pixs A)) (Zsum (pixs A'))) as [Es|Es].
  - assert (AA : all_arrived (S n)) by (apply (stable_arrived n A B A' B'); auto; exact (Eq Es)).
    destruct fuel; cbn [skiz_loop]; (destruct (Zsum (pixs A) <? Zsum (pixs A')) eqn:E2; [lia|]); (exists (SK A' B' T1' T2'); split; [reflexivity|]; apply (after_zones (S n)); auto).
  - apply (IH (S k) (S n)); auto; lia.
Qed.

Lemma skiz_ok_run junk cs fuel L2 : (forall k i j, legal_conf (dh (sz L)) (cs k i j)) -> wf_img L2 -> sz L2 = sz L -> typed_img t L2 ->
  (forall x y z a b, pixel_is L x y z a -> pixel_is L2 x y z b -> (a = 0 /\ b = 0) \/ (a <> 0 /\ b = mx - a)) -> skiz_enough L fuel ->
  exists r1 r2, lblSkiz fuel t junk cs se L L2 M = Some (Some (1, (r1, r2))) /\ zones t se L M r1 r2.
Proof using Ht GL WM SM TL TM HT H1 HF Hsz.
  intros HL W2 S2 T2 HC Hf. unfold lblSkiz. rewrite !same_size_true by congruence. cbn [andb negb].
  assert (Wn : wf_img (new_img junk L)) by (apply new_wf_img; apply GL).
  assert (exists st, skiz_loop fuel 0 t junk cs se M (-1) 0 (SK L L2 (new_img junk L) (new_img junk L)) = Some (Some st) /\ zones t se L M (sk_l1 st) (sk_l2 st)) as (st & E & Z0).
  2:{ exists (sk_l1 st), (sk_l2 st). rewrite E. split; [reflexivity|exact Z0]. }
  unfold skiz_enough in Hf. fold cap in Hf.
  destruct (sum_bounds L (proj1 GL) eq_refl TL) as (Bd & _). destruct fuel as [|fuel]; [lia|]. cbn [skiz_loop]. change (-1 <? 0) with true. cbv iota.
  destruct (turn_ok junk (cs 0%nat) L L2 (new_img junk L) (new_img junk L) (HL 0%nat) (proj1 GL) W2 Wn Wn eq_refl S2 eq_refl eq_refl TL T2) as (A' & B' & T1' & T2' & Et & Tu & W1' & W2' & S1' & S2').
  rewrite Et. cbn [option_bind sk_l1]. pose proof (turned_le L L2 A' B' eq_refl S2 (proj1 GL) W2 Tu) as (Le & Eq).
  pose proof (after_start L2 S2 HC) as I0. pose proof (after_step 0 L L2 A' B' eq_refl S2 (proj1 GL) W2 Tu I0) as IA'.
  destruct Tu as (SA' & SB' & WA' & WB' & TA' & TB' & _). destruct (sum_bounds A' WA' SA' TA') as (Bd' & ->). cbn [option_bind].
  apply (skiz_loop_ok junk cs HL fuel 1 1 A' B' T1' T2' 0); auto; [|lia].
  intros H0. apply (stable_arrived 0 L L2 A' B'); auto; [apply GL|]. apply Eq. lia.
Qed.
End Skiz.

Lemma lblSkiz_ok fuel t junk cs se l1 l2 mask : skiz_ok t se cs l1 l2 mask -> skiz_enough l1 fuel ->
  exists r1 r2, lblSkiz fuel t junk cs se l1 l2 mask = Some (Some (1, (r1, r2))) /\ zones t se l1 mask r1 r2.
Proof.
  intros (Ht & G1 & W2 & WM & S2 & SM & T1 & T2 & TM & Hs & HT & H1 & HF & HL & HC) Hf.
  apply skiz_ok_run; auto.
Qed.
