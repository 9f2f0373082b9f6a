(** geoDilate, geoErode, geoBuild and geoDualBuild compute flows. *)
From Verif Require Export Proofs.GeodesicIter.

Section Geo.
Context (t : ity) (se : strelt) (s : dims).
Context (Ho : In (0, 0, 0) (se_points se)) (HP : planar se s).

Lemma origin_ne : se_points se <> [].
Proof. intros E. rewrite E in Ho. destruct Ho. Qed.

Lemma sees_self x y z : sees se x y z x y z.
Proof.
  exists (0, 0, 0). split; [exact Ho|]. unfold src_x, px_, py_, pz_. cbn [fst snd]. rewrite !Z.sub_0_r, <- Z.negb_even.
  destruct (se_odd se), (Z.even y), (Z.even z); cbn [andb negb]; repeat split; lia.
Qed.

Notation d := (can1 px_sup (tmin t) s se).
Notation e := (can1 px_inf (tmax t) s (transpose se)).

Lemma d_le F x y z x' y' z' : typedf t s F -> inside s x y z -> inside s x' y' z' -> sees se x y z x' y' z' -> F x' y' z' <= d F x y z.
Proof.
  intros HF Hi Hi' H. apply (proj1 (d_le_iff t s se origin_ne F (d F) (d_typed t s se origin_ne F HF)) (leq_refl s _)); assumption.
Qed.
Lemma e_le F x y z x' y' z' : typedf t s F -> inside s x y z -> inside s x' y' z' -> sees se x' y' z' x y z -> e F x y z <= F x' y' z'.
Proof.
  intros HF Hi Hi' H. apply (proj1 (e_ge_iff t s se origin_ne HP (e F) F (e_typed t s se origin_ne F HF)) (leq_refl s _)) with (x := x') (y := y') (z := z'); assumption.
Qed.

Lemma d_at F x y z : typedf t s F -> inside s x y z -> exists x' y' z', inside s x' y' z' /\ sees se x y z x' y' z' /\ d F x y z = F x' y' z'.
Proof.
  intros HF Hi. destruct (lub_le_greatest _ _ _ (can1_pass px_sup Z.le (tmin t) s sup_lub se origin_ne F x y z Hi)) as ((p & Hp & E) & _).
  unfold gval, bo in E. destruct (insideb s (src_x (se_odd se) x y z p) (y - py_ p) (z - pz_ p)) eqn:B.
  - apply insideb_spec in B. do 3 eexists. split; [exact B|]. split; [exists p; auto|symmetry; exact E].
  - exists x, y, z. split; [exact Hi|]. split; [apply sees_self|]. pose proof (d_le F x y z x y z HF Hi Hi (sees_self x y z)). pose proof (HF x y z Hi) as K. unfold inty in K. lia.
Qed.
Lemma e_at F x y z : typedf t s F -> inside s x y z -> exists x' y' z', inside s x' y' z' /\ sees se x' y' z' x y z /\ e F x y z = F x' y' z'.
Proof.
  intros HF Hi. destruct (lub_ge_least _ _ _ (can1_pass px_inf Z.ge (tmax t) s inf_lub (transpose se) (HNt se origin_ne) F x y z Hi)) as ((p & Hp & E) & _).
  unfold gval, bo in E. destruct (insideb s (src_x (se_odd (transpose se)) x y z p) (y - py_ p) (z - pz_ p)) eqn:B.
  - apply insideb_spec in B. do 3 eexists. split; [exact B|]. split; [|symmetry; exact E].
    apply (sees_transpose se x y z _ _ _ (planar_z se s z HP (proj2 (proj2 Hi)))). exists p. auto.
  - exists x, y, z. split; [exact Hi|]. split; [apply sees_self|]. pose proof (e_le F x y z x y z HF Hi Hi (sees_self x y z)). pose proof (HF x y z Hi) as K. unfold inty in K. lia.
Qed.

Lemma dn_self n F x y z : typedf t s F -> inside s x y z -> F x y z <= Nat.iter n d F x y z.
Proof.
  intros HF Hi. induction n as [|n IH]; [apply Z.le_refl|]. eapply Z.le_trans; [exact IH|].
  apply (d_le (Nat.iter n d F)); auto using sees_self. apply dn_typed; auto using origin_ne.
Qed.
Lemma en_self n F x y z : typedf t s F -> inside s x y z -> Nat.iter n e F x y z <= F x y z.
Proof.
  intros HF Hi. induction n as [|n IH]; [apply Z.le_refl|]. eapply Z.le_trans; [|exact IH].
  apply (e_le (Nat.iter n e F)); auto using sees_self. apply en_typed; auto using origin_ne.
Qed.

Lemma sees_tr x y z x' y' z' : inside s x y z -> inside s x' y' z' -> (sees se x' y' z' x y z <-> sees (transpose se) x y z x' y' z').
Proof. intros Hi _. symmetry. apply sees_transpose. exact (planar_z se s z HP (proj2 (proj2 Hi))). Qed.
End Geo.

Lemma pw2_mk f s F G H : wf_dims s -> (forall x y z, inside s x y z -> H x y z = f (F x y z) (G x y z)) -> pw2 f (mk_img s F) (mk_img s G) = mk_img s H.
Proof.
  intros Hw HH. unfold pw2, mk_img. cbn [sz pixs]. f_equal. assert (forall x y z, In (x, y, z) (grid (dw s) (dh s) (dd s)) -> H x y z = f (F x y z) (G x y z)) as K by (intros x y z Hi; apply HH, grid_In, Hi).
  revert K. generalize (grid (dw s) (dh s) (dd s)). intros l. induction l as [|[[x y] z] l IH]; intros K; [reflexivity|]. cbn. f_equal; [symmetry; apply K; left; reflexivity|].
  apply IH. intros a b c Hi. apply K. right. exact Hi.
Qed.

Lemma pw2_mask f mask F H : wf_img mask -> (forall x y z, inside (sz mask) x y z -> H x y z = f (F x y z) (pxv mask x y z)) ->
  pw2 f (mk_img (sz mask) F) mask = mk_img (sz mask) H.
Proof.
  intros W HH. transitivity (pw2 f (mk_img (sz mask) F) (mk_img (sz mask) (pxv mask))); [rewrite <- (img_mk mask W); reflexivity|]. apply pw2_mk; [apply W|exact HH].
Qed.
Lemma pw2_both f marker mask H : wf_img marker -> wf_img mask -> sz marker = sz mask ->
  (forall x y z, inside (sz mask) x y z -> H x y z = f (pxv marker x y z) (pxv mask x y z)) -> pw2 f marker mask = mk_img (sz mask) H.
Proof.
  intros W1 W E HH. transitivity (pw2 f (mk_img (sz mask) (pxv marker)) mask); [rewrite <- E, <- (img_mk marker W1); reflexivity|]. apply pw2_mask; assumption.
Qed.

Section Inst.
Context (t : ity) (junk : Z -> Z) (cs : nat -> nat -> conf) (se : strelt) (marker mask out : img).
Context (HG : geo_run t se cs marker mask out).
Notation s := (sz mask).
Notation m := (pxv marker).
Notation M := (pxv mask).

Lemma run_parts : (t = UINT8 \/ t = UINT16) /\ wf_img marker /\ wf_img mask /\ sz marker = s /\ sz out = s /\ typedf t s m /\ typedf t s M /\
  dw s * dh s * dd s < 2 ^ 31 /\ planar se s /\ good_img mask /\ good_se se s /\ In (0, 0, 0) (se_points se) /\ (forall k j, legal_conf (dh s) (cs k j)).
Proof.
  destruct HG as ((A1 & A2 & A3 & A4 & A5 & A6 & A7 & A8 & A9 & A10) & B & C & D & E).
  split; [exact A1|]. split; [exact A2|]. split; [exact A3|]. split; [exact A4|]. split; [exact A5|]. split; [apply typed_px; assumption|].
  split; [apply typed_px; auto|]. split; [exact (proj2 (proj2 (proj2 A8)))|]. auto 10.
Qed.

Lemma mk_good F : good_img (mk_img s F).
Proof. destruct HG as (_ & B & _). apply (good_mk mask F B). Qed.

Lemma can_pxv op bv se0 n F x y z : inside s x y z -> Nat.iter n (can1 op bv s se0) (pxv (mk_img s F)) x y z = Nat.iter n (can1 op bv s se0) F x y z.
Proof. intros Hi. apply cann_ext; [|exact Hi]. intros x0 y0 z0 Hi0. apply pxv_mk; [|exact Hi0]. destruct run_parts as (_ & _ & W & _). apply W. Qed.

Lemma good_resize n : 0 <= n -> good_se (with_size se n) s.
Proof.
  intros Hn. destruct run_parts as (_ & _ & _ & _ & _ & _ & _ & _ & _ & _ & (A & B & C & D & E) & _).
  split; [exact A|]. split; [exact Hn|]. split; [exact C|]. split; [exact D|exact E].
Qed.

Lemma step_dil se0 k F : good_se se0 s -> geo_step_dil t junk (cs k) se0 false mask (mk_img s F) = Some (mk_img s (gstep Z.min M (Dn t s se0) F)).
Proof.
  intros Hse. destruct run_parts as (_ & _ & W & _ & _ & _ & _ & _ & _ & _ & _ & _ & L).
  unfold geo_step_dil. rewrite (dilate_eq t junk se0 (mk_img s F) (mk_good F) Hse (cs k) true (mk_img s F)); auto; [|apply mk_img_wf; apply W].
  cbn [option_bind snd mask_of sz mk_img]. f_equal. apply pw2_mask; [exact W|]. intros x y z Hi. unfold gstep. rewrite px_inf_min.
  f_equal. symmetry. apply can_pxv. exact Hi.
Qed.
Lemma step_ero se0 k F : good_se se0 s -> geo_step_ero t junk (cs k) se0 false mask (mk_img s F) = Some (mk_img s (gstep Z.max M (En t s se0) F)).
Proof.
  intros Hse. destruct run_parts as (_ & _ & W & _ & _ & _ & _ & _ & _ & _ & _ & _ & L).
  unfold geo_step_ero. rewrite (erode_eq t junk se0 (mk_img s F) (mk_good F) Hse (cs k) true (mk_img s F)); auto; [|apply mk_img_wf; apply W].
  cbn [option_bind snd mask_of sz mk_img]. f_equal. apply pw2_mask; [exact W|]. intros x y z Hi. unfold gstep. rewrite px_sup_max.
  f_equal. symmetry. apply can_pxv. exact Hi.
Qed.

Lemma start_inf : pw2 px_inf marker mask = mk_img s (g0 Z.min m M).
Proof.
  destruct run_parts as (_ & W1 & W & E & _). apply pw2_both; [exact W1|exact W|exact E|].
  intros x y z Hi. unfold g0. symmetry. apply px_inf_min.
Qed.
Lemma start_sup : pw2 px_sup marker mask = mk_img s (g0 Z.max m M).
Proof.
  destruct run_parts as (_ & W1 & W & E & _). apply pw2_both; [exact W1|exact W|exact E|].
  intros x y z Hi. unfold g0. symmetry. apply px_sup_max.
Qed.

Lemma guard : negb (same_size marker mask && same_size marker out) = false.
Proof. destruct run_parts as (_ & _ & _ & E & Eo & _). rewrite !same_size_true by congruence. reflexivity. Qed.

(** geoDilate of size n: flows along at most n steps. *)
Lemma geoDilate_ok : exists R, geoDilate t junk cs se false marker mask out = Some (1, R) /\ sz R = s /\ wf_img R /\
  forall x y z v, pixel_is R x y z v -> greatest (flows_in Z.min se marker mask (Z.to_nat (se_size se)) x y z) v.
Proof.
  destruct run_parts as (Ht & W1 & W & E & Eo & Tm & TM & Hs & HP & Hgi & Hse & Ho & HL). unfold geoDilate. rewrite guard, start_inf.
  set (n := Z.to_nat (se_size se)). pose proof (origin_ne se Ho) as Hne.
  assert (Tt : forall F, typedf t s F -> typedf t s (Dn t s (with_size se 1) F)) by (intros F HF; apply (dn_typed t s se Hne); exact HF).
  assert (Ts : forall F x y z, typedf t s F -> inside s x y z -> key true (Dn t s (with_size se 1) F x y z) <= key true (F x y z)).
  { intros F x y z HF Hi. pose proof (dn_self t se s Ho 1 F x y z HF Hi) as K. unfold key. change (Nat.iter 1 (can1 px_sup (tmin t) s se) F x y z) with (Dn t s (with_size se 1) F x y z) in K. lia. }
  pose proof (iter_ok t true Z.min s m M (Dn t s (with_size se 1)) key_min Tm TM Tt Ts (fun k => geo_step_dil t junk (cs k) (with_size se 1) false mask)
    (fun k F _ => step_dil (with_size se 1) k F (good_resize 1 ltac:(lia))) n 0 0) as K.
  rewrite Nat.add_0_r in K. cbn [Nat.iter nat_rect] in K. rewrite K. cbn [option_bind].
  eexists. split; [reflexivity|]. split; [reflexivity|]. split; [apply mk_img_wf; apply W|].
  intros x y z v Hv. apply mk_img_is in Hv as (Hi & ->); [|apply W].
  assert (Em : marker = mk_img s m) by (rewrite <- E; apply img_mk; exact W1). pose proof (img_mk mask W) as Ek.
  split.
  - apply (G_flows t true Z.min s m M (Dn t s (with_size se 1)) (proj1 W) key_min Tm TM Tt Ts (sees se)); auto; [|tauto].
    intros F x0 y0 z0 HF Hi0. apply (d_at t se s Ho F x0 y0 z0 HF Hi0).
  - intros u Hu. cut (key true (Nat.iter n (gstep Z.min M (Dn t s (with_size se 1))) (g0 Z.min m M) x y z) <= key true u); [unfold key; lia|].
    apply (G_best t true Z.min s m M (Dn t s (with_size se 1)) (proj1 W) key_min Tm TM Tt Ts (sees se)) with (se := se) (marker := marker) (mask := mask); auto; [|tauto].
    intros F x0 y0 z0 x1 y1 z1 HF Hi0 Hi1 Hn. pose proof (d_le t se s Ho F x0 y0 z0 x1 y1 z1 HF Hi0 Hi1 Hn) as K'. unfold key.
    change (Dn t s (with_size se 1) F x0 y0 z0) with (can1 px_sup (tmin t) s se F x0 y0 z0). lia.
Qed.

Lemma geoErode_ok : exists R, geoErode t junk cs se false marker mask out = Some (1, R) /\ sz R = s /\ wf_img R /\
  forall x y z v, pixel_is R x y z v -> least (flows_in Z.max (transpose se) marker mask (Z.to_nat (se_size se)) x y z) v.
Proof.
  destruct run_parts as (Ht & W1 & W & E & Eo & Tm & TM & Hs & HP & Hgi & Hse & Ho & HL). unfold geoErode. rewrite guard, start_sup.
  set (n := Z.to_nat (se_size se)). pose proof (origin_ne se Ho) as Hne.
  assert (Tt : forall F, typedf t s F -> typedf t s (En t s (with_size se 1) F)) by (intros F HF; apply (en_typed t s se Hne); exact HF).
  assert (Ts : forall F x y z, typedf t s F -> inside s x y z -> key false (En t s (with_size se 1) F x y z) <= key false (F x y z)).
  { intros F x y z HF Hi. exact (en_self t se s Ho HP 1 F x y z HF Hi). }
  pose proof (iter_ok t false Z.max s m M (En t s (with_size se 1)) key_max Tm TM Tt Ts (fun k => geo_step_ero t junk (cs k) (with_size se 1) false mask)
    (fun k F _ => step_ero (with_size se 1) k F (good_resize 1 ltac:(lia))) n 0 0) as K.
  rewrite Nat.add_0_r in K. cbn [Nat.iter nat_rect] in K. rewrite K. cbn [option_bind].
  eexists. split; [reflexivity|]. split; [reflexivity|]. split; [apply mk_img_wf; apply W|].
  intros x y z v Hv. apply mk_img_is in Hv as (Hi & ->); [|apply W].
  assert (Em : marker = mk_img s m) by (rewrite <- E; apply img_mk; exact W1). pose proof (img_mk mask W) as Ek.
  split.
  - apply (G_flows t false Z.max s m M (En t s (with_size se 1)) (proj1 W) key_max Tm TM Tt Ts (fun x y z x' y' z' => sees se x' y' z' x y z)); auto; [|intros; apply (sees_tr se s HP); assumption].
    intros F x0 y0 z0 HF Hi0. apply (e_at t se s Ho HP F x0 y0 z0 HF Hi0).
  - intros u Hu. change (key false (Nat.iter n (gstep Z.max M (En t s (with_size se 1))) (g0 Z.max m M) x y z) <= key false u).
    apply (G_best t false Z.max s m M (En t s (with_size se 1)) (proj1 W) key_max Tm TM Tt Ts (fun x y z x' y' z' => sees se x' y' z' x y z)) with (se := transpose se) (marker := marker) (mask := mask); auto; [|intros; apply (sees_tr se s HP); assumption].
    intros F x0 y0 z0 x1 y1 z1 HF Hi0 Hi1 Hn. exact (e_le t se s Ho HP F x0 y0 z0 x1 y1 z1 HF Hi0 Hi1 Hn).
Qed.

Lemma geoBuild_ok fuel : geo_enough mask fuel ->
  exists R, geoBuild t junk cs fuel se false marker mask out = Some (Some (1, R)) /\ sz R = s /\ wf_img R /\ (se_size se = 1 -> rebuilt se marker mask R).
Proof.
  intros Hf. destruct run_parts as (Ht & W1 & W & E & Eo & Tm & TM & Hs & HP & Hgi & Hse & Ho & HL). unfold geoBuild. rewrite guard, start_inf.
  pose proof (origin_ne se Ho) as Hne.
  assert (Tt : forall F, typedf t s F -> typedf t s (Dn t s se F)) by (intros F HF; apply (dn_typed t s se Hne); exact HF).
  assert (Ts : forall F x y z, typedf t s F -> inside s x y z -> key true (Dn t s se F x y z) <= key true (F x y z)).
  { intros F x y z HF Hi. pose proof (dn_self t se s Ho (Z.to_nat (se_size se)) F x y z HF Hi) as K. unfold key. lia. }
  rewrite (mk_volume t s (proj1 W) Ht Hs (g0 Z.min m M) (G_typed t true Z.min s m M (Dn t s se) key_min Tm TM Tt Ts 0%nat)). cbn [option_bind].
  destruct (geo_loop_ok t true Z.min s m M (Dn t s se) (proj1 W) Ht Hs key_min Tm TM Tt Ts (fun k => geo_step_dil t junk (cs k) se false mask)
    (fun k F _ => step_dil se k F Hse) fuel 0 0) as (n & K & Hfix).
  { unfold spent, budget. pose proof (mk_sum t s (proj1 W) Ht _ (G_typed t true Z.min s m M (Dn t s se) key_min Tm TM Tt Ts 0%nat)). unfold geo_enough in Hf. lia. }
  cbn [Nat.iter nat_rect] in K. rewrite K. cbn [fuel_bind].
  eexists. split; [reflexivity|]. split; [reflexivity|]. split; [apply mk_img_wf; apply W|]. intros E1.
  assert (Em : marker = mk_img s m) by (rewrite <- E; apply img_mk; exact W1). pose proof (img_mk mask W) as Ek.
  assert (ET : forall F, Dn t s se F = can1 px_sup (tmin t) s se F) by (intros F; rewrite E1; reflexivity).
  split; [reflexivity|]. split; [apply mk_img_wf; apply W|]. intros x y z v Hv. apply mk_img_is in Hv as (Hi & ->); [|apply W]. split.
  - apply (flows_in_flows _ _ _ _ n). apply (G_flows t true Z.min s m M (Dn t s se) (proj1 W) key_min Tm TM Tt Ts (sees se)); auto; [|tauto].
    intros F x0 y0 z0 HF Hi0. rewrite ET. apply (d_at t se s Ho F x0 y0 z0 HF Hi0).
  - intros u Hu. cut (key true (Nat.iter n (gstep Z.min M (Dn t s se)) (g0 Z.min m M) x y z) <= key true u); [unfold key; lia|].
    apply (G_limit t true Z.min s m M (Dn t s se) (proj1 W) key_min Tm TM Tt Ts (sees se)) with (se := se) (marker := marker) (mask := mask); auto; [|tauto].
    intros F x0 y0 z0 x1 y1 z1 HF Hi0 Hi1 Hn. pose proof (d_le t se s Ho F x0 y0 z0 x1 y1 z1 HF Hi0 Hi1 Hn) as K'. rewrite ET. unfold key. lia.
Qed.

Lemma geoDualBuild_ok fuel : geo_enough mask fuel ->
  exists R, geoDualBuild t junk cs fuel se false marker mask out = Some (Some (1, R)) /\ sz R = s /\ wf_img R /\ (se_size se = 1 -> dual_rebuilt (transpose se) marker mask R).
Proof.
  intros Hf. destruct run_parts as (Ht & W1 & W & E & Eo & Tm & TM & Hs & HP & Hgi & Hse & Ho & HL). unfold geoDualBuild. rewrite guard, start_sup.
  pose proof (origin_ne se Ho) as Hne.
  assert (Tt : forall F, typedf t s F -> typedf t s (En t s se F)) by (intros F HF; apply (en_typed t s se Hne); exact HF).
  assert (Ts : forall F x y z, typedf t s F -> inside s x y z -> key false (En t s se F x y z) <= key false (F x y z)).
  { intros F x y z HF Hi. exact (en_self t se s Ho HP (Z.to_nat (se_size se)) F x y z HF Hi). }
  rewrite (mk_volume t s (proj1 W) Ht Hs (g0 Z.max m M) (G_typed t false Z.max s m M (En t s se) key_max Tm TM Tt Ts 0%nat)). cbn [option_bind].
  destruct (geo_loop_ok t false Z.max s m M (En t s se) (proj1 W) Ht Hs key_max Tm TM Tt Ts (fun k => geo_step_ero t junk (cs k) se false mask)
    (fun k F _ => step_ero se k F Hse) fuel 0 0) as (n & K & Hfix).
  { unfold spent, budget. pose proof (mk_sum t s (proj1 W) Ht _ (G_typed t false Z.max s m M (En t s se) key_max Tm TM Tt Ts 0%nat)). unfold geo_enough in Hf. lia. }
  cbn [Nat.iter nat_rect] in K. rewrite K. cbn [fuel_bind].
  eexists. split; [reflexivity|]. split; [reflexivity|]. split; [apply mk_img_wf; apply W|]. intros E1.
  assert (Em : marker = mk_img s m) by (rewrite <- E; apply img_mk; exact W1). pose proof (img_mk mask W) as Ek.
  assert (ET : forall F, En t s se F = can1 px_inf (tmax t) s (transpose se) F) by (intros F; rewrite E1; reflexivity).
  split; [reflexivity|]. split; [apply mk_img_wf; apply W|]. intros x y z v Hv. apply mk_img_is in Hv as (Hi & ->); [|apply W]. split.
  - apply (flows_in_flows _ _ _ _ n). apply (G_flows t false Z.max s m M (En t s se) (proj1 W) key_max Tm TM Tt Ts (fun x y z x' y' z' => sees se x' y' z' x y z)); auto; [|intros; apply (sees_tr se s HP); assumption].
    intros F x0 y0 z0 HF Hi0. rewrite ET. apply (e_at t se s Ho HP F x0 y0 z0 HF Hi0).
  - intros u Hu. change (key false (Nat.iter n (gstep Z.max M (En t s se)) (g0 Z.max m M) x y z) <= key false u).
    apply (G_limit t false Z.max s m M (En t s se) (proj1 W) key_max Tm TM Tt Ts (fun x y z x' y' z' => sees se x' y' z' x y z)) with (se := transpose se) (marker := marker) (mask := mask); auto; [|intros; apply (sees_tr se s HP); assumption].
    intros F x0 y0 z0 x1 y1 z1 HF Hi0 Hi1 Hn. rewrite ET. exact (e_le t se s Ho HP F x0 y0 z0 x1 y1 z1 HF Hi0 Hi1 Hn).
Qed.
End Inst.
