(** build and dualBuild compute the reconstructions. *)
From Verif Require Export Proofs.BuildProofs Proofs.MorphTheorems2.

Section Bridge.
Context (rev : bool) (lim : Z -> Z -> Z) (se : strelt) (marker mask : img) (I0 : list Z).
Notation s := (sz mask).
Notation off := (voxel_offset (dw s) (dh s)).
Context (Hlim : forall a b, key rev (lim a b) = Z.max (key rev a) (key rev b)).
Context (Wm : wf_img marker) (Wk : wf_img mask) (Es : sz marker = s).
Context (LI : Z.of_nat (length I0) = dw s * dh s * dd s).
Context (HI : forall x y z a b, pixel_is marker x y z a -> pixel_is mask x y z b -> znth 0 I0 (off x y z) = lim a b).

Lemma flows_inside x y z v : flows lim se marker mask x y z v -> inside s x y z.
Proof. intros H. destruct H as [x y z a b _ [H _]|x y z x' y' z' v b _ _ [H _]]; exact H. Qed.

Lemma flows_reach x y z v : flows lim se marker mask x y z v -> reach rev se s (pixs mask) I0 (off x y z) (key rev v).
Proof.
  intros H. induction H as [x y z a b Ha Hb|x y z x' y' z' v b Hf IH Hse Hb].
  - rewrite <- (HI x y z a b Ha Hb). apply reach0. apply inside_range. exact (proj1 Hb).
  - rewrite Hlim. rewrite <- (znth_rd 0 _ _ _ (proj2 Hb)). apply (reach_step _ _ _ _ _ (off x' y' z')); [exact IH|].
    exists x, y, z, x', y', z'. split; [exact (proj1 Hb)|]. split; [exact (flows_inside _ _ _ _ Hf)|]. auto.
Qed.

Lemma reach_flows p w : reach rev se s (pixs mask) I0 p w -> exists v, w = key rev v /\ forall x y z, inside s x y z -> p = off x y z -> flows lim se marker mask x y z v.
Proof.
  intros H. induction H as [p Hp|p nb w Hr (v & -> & IH) Cv].
  - exists (znth 0 I0 p). split; [reflexivity|]. intros x y z Hi ->.
    destruct (pixel_exists mask x y z Wk Hi) as [b Hb]. destruct (pixel_exists marker x y z Wm) as [a Ha]; [rewrite Es; exact Hi|].
    rewrite (HI x y z a b Ha Hb). apply flow_start; assumption.
  - destruct Cv as (x & y & z & x' & y' & z' & Hi & Hi' & En & Ep & Hse).
    destruct (pixel_exists mask x y z Wk Hi) as [b Hb].
    exists (lim v b). split; [rewrite Hlim, En, (znth_rd 0 _ _ _ (proj2 Hb)); reflexivity|].
    intros x1 y1 z1 Hi1 E1. rewrite En in E1. destruct (voxel_inj s _ _ _ _ _ _ Hi Hi1 E1) as (<- & <- & <-).
    apply (flow_step _ _ _ _ x y z x' y' z'); [apply IH; assumption|exact Hse|exact Hb].
Qed.
End Bridge.

Lemma same_size_eq a b : sz a = sz b -> same_size a b = true.
Proof. intros H. unfold same_size, width, height, depth. rewrite H, !Z.eqb_refl. reflexivity. Qed.

Lemma map2_I0 f marker mask : wf_img marker -> wf_img mask -> sz marker = sz mask ->
  Z.of_nat (length (map2 f (pixs marker) (pixs mask))) = dw (sz mask) * dh (sz mask) * dd (sz mask) /\
  forall x y z a b, pixel_is marker x y z a -> pixel_is mask x y z b ->
    znth 0 (map2 f (pixs marker) (pixs mask)) (voxel_offset (dw (sz mask)) (dh (sz mask)) x y z) = f a b.
Proof.
  intros (W1 & L1) (W2 & L2) E. split; [rewrite map2_length; rewrite E in L1; lia|].
  intros x y z a b [_ Ha] [_ Hb]. rewrite E in Ha. apply znth_rd. rewrite rd_map2, Ha, Hb. reflexivity.
Qed.

Lemma map2_at f marker mask p : wf_img marker -> wf_img mask -> sz marker = sz mask -> 0 <= p < dw (sz mask) * dh (sz mask) * dd (sz mask) ->
  znth 0 (map2 f (pixs marker) (pixs mask)) p = f (znth 0 (pixs marker) p) (znth 0 (pixs mask) p).
Proof.
  intros (W1 & L1) (W2 & L2) E Hp. rewrite E in L1. apply znth_rd. rewrite rd_map2, !(rd_znth 0) by lia. reflexivity.
Qed.

Lemma map2_typed t f marker mask : (forall a b, f a b = a \/ f a b = b) -> typed_img t marker -> typed_img t mask -> Forall (inty t) (map2 f (pixs marker) (pixs mask)).
Proof.
  unfold typed_img. intros Hf. generalize (pixs marker) (pixs mask). intros l. induction l as [|a l IH]; intros [|b r] H1 H2; cbn; constructor.
  - inversion H1; inversion H2; subst. destruct (Hf a b) as [-> | ->]; assumption.
  - inversion H1; inversion H2; subst. apply IH; assumption.
Qed.

Lemma key_inf a b : key true (px_inf a b) = Z.max (key true a) (key true b).
Proof. unfold px_inf, key. destruct (a <? b) eqn:E; lia. Qed.
Lemma key_min a b : key true (Z.min a b) = Z.max (key true a) (key true b).
Proof. unfold key. lia. Qed.
Lemma key_max a b : key false (Z.max a b) = Z.max (key false a) (key false b).
Proof. reflexivity. Qed.

Lemma znth_map0 (f : Z -> Z) l p : 0 <= p < Z.of_nat (length l) -> znth 0 (map f l) p = f (znth 0 l p).
Proof. intros H. apply znth_rd. rewrite rd_map, (rd_znth 0) by exact H. reflexivity. Qed.

(** The result of a flooding, read as an image. *)
Lemma rebuilt_of rev lim se marker mask R :
  (forall a b, key rev (lim a b) = Z.max (key rev a) (key rev b)) -> wf_img marker -> wf_img mask -> sz marker = sz mask ->
  Z.of_nat (length R) = dw (sz mask) * dh (sz mask) * dd (sz mask) ->
  (forall p, 0 <= p < dw (sz mask) * dh (sz mask) * dd (sz mask) ->
     reach rev se (sz mask) (pixs mask) (map2 lim (pixs marker) (pixs mask)) p (key rev (znth 0 R p)) /\
     forall v, reach rev se (sz mask) (pixs mask) (map2 lim (pixs marker) (pixs mask)) p v -> key rev (znth 0 R p) <= v) ->
  wf_img (Img (sz mask) R) /\
  forall x y z v, pixel_is (Img (sz mask) R) x y z v -> flows lim se marker mask x y z v /\ forall u, flows lim se marker mask x y z u -> key rev v <= key rev u.
Proof.
  intros Hlim W1 W2 E LR H. split; [split; [exact (proj1 W2)|exact LR]|].
  intros x y z v [Hi Hv]. cbn [sz pixs] in *. pose proof (inside_range _ _ _ _ Hi) as Hp.
  destruct (map2_I0 lim marker mask W1 W2 E) as [LI HI]. destruct (H _ Hp) as [H1 H2].
  pose proof (znth_rd 0 _ _ _ Hv) as Ev. rewrite Ev in *.
  split.
  - destruct (reach_flows rev lim se marker mask _ Hlim W1 W2 E HI _ _ H1) as (w & Ew & Hw).
    assert (v = w) as -> by (unfold key in Ew; destruct rev; lia). apply Hw; auto.
  - intros u Hu. apply H2. apply (flows_reach rev lim se marker mask _ Hlim HI). exact Hu.
Qed.

Lemma dualBuild_ok fuel t se marker mask out : geo_ok t se marker mask out -> enough mask fuel ->
  exists R, dualBuild fuel t se false marker mask out = Some (Some (1, R)) /\ dual_rebuilt se marker mask R /\ typed_img t R.
Proof.
  intros (Ht & W1 & W2 & E & Eo & T1 & T2 & Hs & Hp & Hpl) Hf. unfold dualBuild.
  rewrite !same_size_eq by congruence. cbn [andb negb].
  assert (EI : map2 px_sup (pixs marker) (pixs mask) = map2 Z.max (pixs marker) (pixs mask)).
  { assert (forall l r, map2 px_sup l r = map2 Z.max l r) as ->; [|reflexivity]. induction l as [|a l IH]; intros [|b r]; cbn; auto. rewrite IH. f_equal.
    unfold px_sup. destruct (a >? b) eqn:Q; lia. }
  unfold pw2. rewrite EI, E. destruct (map2_I0 Z.max marker mask W1 W2 E) as [LI HI].
  destruct (run_build_ok t false Z.max se (sz mask) (pixs mask) (map2 Z.max (pixs marker) (pixs mask)) (map (fun _ => HQ_CANDIDATE) (pixs marker)) None Ht Hs Hp Hpl key_max) with (fuel := fuel)
    as (R & ER & LR & TR & HR); auto.
  - exact (proj2 W2).
  - rewrite map_length. destruct W1 as [_ L1]. rewrite E in L1. exact L1.
  - apply map2_typed; auto. intros a b. lia.
  - intros p Hpr. rewrite map2_at by auto. unfold key. lia.
  - intros v w H. discriminate.
  - intros p Hpr. left. rewrite znth_map0; [reflexivity|]. destruct W1 as [_ L1]. rewrite E in L1. lia.
  - unfold enough in Hf. destruct W2 as [_ L2]. lia.
  - exists (Img (sz mask) R). split; [exact ER|]. destruct (rebuilt_of false Z.max se marker mask R key_max W1 W2 E LR HR) as [G1 G2].
    split; [|exact TR]. split; [reflexivity|]. split; [exact G1|]. intros x y z v Hv. exact (G2 x y z v Hv).
Qed.

Lemma map2_inf l r : map2 px_inf l r = map2 Z.min l r.
Proof. revert r. induction l as [|a l IH]; intros [|b r]; cbn; auto. rewrite IH. f_equal. unfold px_inf. destruct (a <? b) eqn:Q; lia. Qed.

Lemma rebuilt_ok se marker mask R : wf_img marker -> wf_img mask -> sz marker = sz mask ->
  Z.of_nat (length R) = dw (sz mask) * dh (sz mask) * dd (sz mask) ->
  (forall p, 0 <= p < dw (sz mask) * dh (sz mask) * dd (sz mask) ->
     reach true se (sz mask) (pixs mask) (map2 Z.min (pixs marker) (pixs mask)) p (key true (znth 0 R p)) /\
     forall v, reach true se (sz mask) (pixs mask) (map2 Z.min (pixs marker) (pixs mask)) p v -> key true (znth 0 R p) <= v) ->
  rebuilt se marker mask (Img (sz mask) R).
Proof.
  intros W1 W2 E LR HR. destruct (rebuilt_of true Z.min se marker mask R key_min W1 W2 E LR HR) as [G1 G2].
  split; [reflexivity|]. split; [exact G1|]. intros x y z v Hv. destruct (G2 x y z v Hv) as [H1 H2]. split; [exact H1|].
  intros u Hu. specialize (H2 u Hu). unfold key in H2. lia.
Qed.

Lemma binBuild_ok fuel t se marker mask out : geo_ok t se marker mask out -> enough mask fuel ->
  exists R, binBuild fuel t se false marker mask out = Some (Some (1, R)) /\ rebuilt se marker mask R /\ typed_img t R.
Proof.
  intros (Ht & W1 & W2 & E & Eo & T1 & T2 & Hs & Hp & Hpl) Hf. unfold binBuild, mask_of.
  rewrite !same_size_eq by congruence. cbn [andb negb]. unfold pw2. rewrite map2_inf, E.
  destruct (map2_I0 Z.min marker mask W1 W2 E) as [LI HI]. pose proof (proj2 W2) as L2. pose proof (u816 t Ht) as (U0 & _ & _).
  destruct (run_build_ok t true Z.min se (sz mask) (pixs mask) (map2 Z.min (pixs marker) (pixs mask)) (map (fun m => px_test m HQ_CANDIDATE HQ_FINAL) (pixs mask)) (Some (tmin t)) Ht Hs Hp Hpl key_min) with (fuel := fuel)
    as (R & ER & LR & TR & HR); auto.
  - rewrite map_length. exact L2.
  - apply map2_typed; auto. intros a b. lia.
  - intros p Hpr. rewrite map2_at by auto. unfold key. lia.
  - intros v w H Hw. cbn in H. unfold inty in Hw. unfold key. lia.
  - intros p Hpr. rewrite znth_map0 by lia. rewrite map2_at by auto. unfold px_test, nz. cbn [skipped].
    assert (T' : forall l, Forall (inty t) l -> 0 <= p < Z.of_nat (length l) -> 0 <= znth 0 l p).
    { intros l Tl Hl. pose proof (typed_at t l p Tl Hl) as H. unfold inty in H. lia. }
    pose proof (T' _ T2 ltac:(lia)). pose proof (T' _ T1 ltac:(pose proof (proj2 W1) as L1; rewrite E in L1; lia)).
    destruct (znth 0 (pixs mask) p =? 0) eqn:Q; cbn [negb]; [right|left; reflexivity]. split; [reflexivity|]. split; lia.
  - unfold enough in Hf. lia.
  - exists (Img (sz mask) R). split; [exact ER|]. split; [apply rebuilt_ok; assumption|exact TR].
Qed.

Lemma build_ok fuel t se marker mask out : geo_ok t se marker mask out -> enough mask fuel ->
  exists R, build fuel t se false marker mask out = Some (Some (1, R)) /\ rebuilt se marker mask R /\ typed_img t R.
Proof.
  intros G Hf. unfold build. destruct (isBinary marker && isBinary mask); [apply binBuild_ok; assumption|].
  destruct G as (Ht & W1 & W2 & E & Eo & T1 & T2 & Hs & Hp & Hpl).
  rewrite !same_size_eq by congruence. cbn [andb negb]. unfold pw2. rewrite map2_inf, E.
  destruct (map2_I0 Z.min marker mask W1 W2 E) as [LI HI]. pose proof (proj2 W2) as L2.
  destruct (run_build_ok t true Z.min se (sz mask) (pixs mask) (map2 Z.min (pixs marker) (pixs mask)) (map (fun _ => HQ_CANDIDATE) (pixs marker)) None Ht Hs Hp Hpl key_min) with (fuel := fuel)
    as (R & ER & LR & TR & HR); auto.
  - rewrite map_length. destruct W1 as [_ L1]. rewrite E in L1. exact L1.
  - apply map2_typed; auto. intros a b. lia.
  - intros p Hpr. rewrite map2_at by auto. unfold key. lia.
  - intros v w H. discriminate.
  - intros p Hpr. left. rewrite znth_map0; [reflexivity|]. destruct W1 as [_ L1]. rewrite E in L1. lia.
  - unfold enough in Hf. lia.
  - exists (Img (sz mask) R). split; [exact ER|]. split; [apply rebuilt_ok; assumption|exact TR].
Qed.
