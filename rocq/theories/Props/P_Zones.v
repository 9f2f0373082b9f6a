(** Theorems for C87 to C90: influence zones and waterfalls. *)
From Verif Require Export Proofs.ZonesProofs2 Props.P_Watershed Props.P_Label.
From Verif Require Import Props.P_Morph Props.P_Geodesic.

Definition same_threads : nat -> nat -> nat -> conf := fun _ _ => one_thread.
Definition skiz_fuel : nat := Z.to_nat 2000000.

(** ** C87.  lblSkiz returns and computes the influence zones of the labels in the mask. *)
Theorem C87_lblSkiz : forall fuel t junk cs se l1 l2 mask, skiz_ok t se cs l1 l2 mask -> skiz_enough l1 fuel ->
  exists r1 r2, lblSkiz fuel t junk cs se l1 l2 mask = Some (Some (1, (r1, r2))) /\ zones t se l1 mask r1 r2.
Proof. exact lblSkiz_ok. Qed.
Print Assumptions C87_lblSkiz.

(** C87.  A pixel of the first image and its complement in the second one are equal exactly in the influence zones and
    where no label arrives; the zones do not depend on the memory and the threads. *)
Theorem C87_zones : forall t se labels mask r1 r2 x y z a b, (t = UINT8 \/ t = UINT16) -> typed_img t labels -> zones t se labels mask r1 r2 ->
  pixel_is r1 x y z a -> pixel_is r2 x y z b ->
  (forall l, in_zone se labels mask l x y z -> a = l /\ b = tmax t - l) /\
  ((exists l, in_zone se labels mask l x y z) <-> a <> 0 /\ a + b = tmax t) /\
  (in_between se labels mask x y z <-> a <> 0 /\ a + b <> tmax t) /\
  ((exists n l, arrives se labels mask n x y z l) <-> a <> 0).
Proof.
  intros t se labels mask r1 r2 x y z a b Ht TL (_ & _ & _ & _ & T1 & T2 & H) Pa Pb. specialize (H x y z a b Pa Pb).
  assert (AR : forall n u v w l, arrives se labels mask n u v w l -> l <> 0) by (induction 1; auto).
  assert (ZB : forall l, in_zone se labels mask l x y z -> ~ in_between se labels mask x y z).
  { intros l (n & (_ & M) & A & U) (n' & l1 & l2 & (_ & M') & A1 & A2 & D). assert (n = n') as <- by (apply Nat.le_antisymm; [eapply M; exact A1|eapply M'; exact A]). apply D. rewrite (U _ A1), (U _ A2). reflexivity. }
  assert (ZA : forall l, in_zone se labels mask l x y z -> l <> 0) by (intros l (n & _ & A & _); exact (AR _ _ _ _ _ A)).
  assert (ZU : forall l l', in_zone se labels mask l x y z -> in_zone se labels mask l' x y z -> l = l').
  { intros l l' (n & (_ & M) & A & U) (n' & (_ & M') & A' & U'). assert (n = n') as <- by (apply Nat.le_antisymm; [eapply M; exact A'|eapply M'; exact A]). exact (U' _ A). }
  assert (ZE : forall l, in_zone se labels mask l x y z -> exists n l, arrives se labels mask n x y z l) by (intros l (n & _ & A & _); eauto).
  assert (BE : in_between se labels mask x y z -> exists n l, arrives se labels mask n x y z l) by (intros (n & l & l' & _ & A & _); eauto).
  destruct H as [(N & -> & ->) | [(l & Z & -> & ->) | (B & (n & A) & (n' & A') & D)]].
  - split; [intros l Z; destruct (ZE l Z) as (n & l' & A); destruct (N _ _ A)|]. split; [split; [intros (l & Z); destruct (ZE l Z) as (n & l' & A); destruct (N _ _ A)|lia]|].
    split; [split; [intros B; destruct (BE B) as (n & l' & A); destruct (N _ _ A)|lia]|split; [intros (n & l & A); destruct (N _ _ A)|lia]].
  - split; [intros l' Z'; rewrite (ZU _ _ Z' Z); auto|]. pose proof (ZA _ Z). split; [split; [intros _; lia|eauto]|]. split; [split; [intros B; destruct (ZB _ Z B)|lia]|]. split; [auto|intros _; eauto].
  - pose proof (AR _ _ _ _ _ A). split; [intros l Z; destruct (ZB _ Z B)|]. split; [split; [intros (l & Z); destruct (ZB _ Z B)|lia]|]. split; [split; [lia|auto]|]. split; [auto|eauto].
Qed.
Print Assumptions C87_zones.

Definition two_seeds : img := Img (Dims 5 2 1) [1;0;0;0;2; 0;0;0;0;0].
Definition two_seeds' : img := Img (Dims 5 2 1) [254;0;0;0;253; 0;0;0;0;0].
Definition full5 : img := Img (Dims 5 2 1) [9;9;9;9;9; 9;9;9;9;9].
Lemma cross_typed : typed_se (CrossSE 1).
Proof. split; [reflexivity|tauto]. Qed.
Lemma legal_threads h : 0 <= h < 40 -> forall k i j, legal_conf h (same_threads k i j).
Proof. intros H k i j. apply one_thread_legal. exact H. Qed.
Lemma skiz_fuel_ok im : 0 <= dw (sz im) * dh (sz im) * dd (sz im) <= 30 -> skiz_enough im skiz_fuel.
Proof. intros H. unfold skiz_enough, skiz_fuel. rewrite Z2Nat.id by lia. lia. Qed.
Lemma complement_check t l1 l2 : wf_img l1 -> sz l2 = sz l1 ->
  forallb (fun k => match rd (pixs l1) k, rd (pixs l2) k with Some a, Some b => ((a =? 0) && (b =? 0)) || (negb (a =? 0) && (b =? tmax t - a)) | _, _ => true end) (zseq (Z.of_nat (length (pixs l1)))) = true ->
  forall x y z a b, pixel_is l1 x y z a -> pixel_is l2 x y z b -> (a = 0 /\ b = 0) \/ (a <> 0 /\ b = tmax t - a).
Proof.
  intros (Wd & L) S C x y z a b (I & R) (_ & R'). rewrite S in R'. rewrite forallb_forall in C. specialize (C (voxel_offset (dw (sz l1)) (dh (sz l1)) x y z)). rewrite R, R' in C.
  assert (K : In (voxel_offset (dw (sz l1)) (dh (sz l1)) x y z) (zseq (Z.of_nat (length (pixs l1))))) by (apply zseq_In; apply rd_Some_range in R; exact R).
  specialize (C K). apply orb_true_iff in C as [C | C]; apply andb_true_iff in C as (A & B); [left|right; apply negb_true_iff in A]; lia.
Qed.

Example C87_case : skiz_ok UINT8 (CrossSE 1) same_threads two_seeds two_seeds' full5 /\ skiz_enough two_seeds skiz_fuel /\
  lblSkiz skiz_fuel UINT8 (fun _ => 77) same_threads (CrossSE 1) two_seeds two_seeds' full5 =
    Some (Some (1, (Img (Dims 5 2 1) [1;1;2;2;2; 1;1;2;2;2], Img (Dims 5 2 1) [254;254;254;253;253; 254;254;254;253;253]))).
Proof.
  split.
  { split; [left; reflexivity|]. split; [apply good_ex; [split; [repeat split; cbn; lia|reflexivity]|cbn; lia|cbn; lia|cbn; lia]|]. split; [split; [repeat split; cbn; lia|reflexivity]|]. split; [split; [repeat split; cbn; lia|reflexivity]|].
    split; [reflexivity|]. split; [reflexivity|]. split; [typed_px|]. split; [typed_px|]. split; [typed_px|]. split; [cbn; lia|]. split; [exact cross_typed|]. split; [reflexivity|]. split; [cbn; lia|].
    split; [apply legal_threads; cbn; lia|]. apply complement_check; [split; [repeat split; cbn; lia|reflexivity]|reflexivity|vm_compute; reflexivity]. }
  split; [apply skiz_fuel_ok; cbn; lia|vm_compute; reflexivity].
Qed.

(** ** C88.  inflBasins gives the influence zones of the components, opened by the default element. *)
Theorem C88_inflBasins_partial : forall fuel t2 junk cs c1 c2 dse se im out, basins_call t2 dse se cs c1 c2 im out -> label_enough im fuel -> skiz_enough im fuel ->
  exists n w lbl mask z1 z2 res, label fuel t2 dse se false im out = Some (Some (n, w, lbl)) /\ sz mask = sz im /\ wf_img mask /\ (forall x y z m, pixel_is mask x y z m -> m <> 0) /\
    zones t2 se lbl mask z1 z2 /\ open_im t2 junk c1 c2 dse true z1 z1 = Some (1, res) /\ inflBasins fuel t2 junk cs c1 c2 dse se false im out = Some (Some (1, res)) /\
    sz res = sz im /\ wf_img res /\ typed_img t2 res /\ le_img res z1.
Proof. exact inflBasins_ok. Qed.
Print Assumptions C88_inflBasins_partial.

(** C88.  The opening gives a pixel of the zone of component 2 to component 1, with the cross as element and default
    element. *)
Definition two_parts : img := Img (Dims 3 3 1) [9;0;9; 9;0;0; 0;0;0].
Definition two_labels : img := Img (Dims 3 3 1) [1;0;2; 1;0;0; 0;0;0].
Definition two_labels' : img := Img (Dims 3 3 1) [254;0;253; 254;0;0; 0;0;0].
Definition everywhere : img := Img (Dims 3 3 1) [255;255;255; 255;255;255; 255;255;255].
Lemma two_parts_call t : t = UINT8 \/ t = UINT16 -> basins_call t (CrossSE 1) (CrossSE 1) same_threads one_thread one_thread two_parts two_parts.
Proof.
  intros Ht. assert (W : wf_img two_parts) by (split; [repeat split; cbn; lia|reflexivity]). split; [exact Ht|]. split; [apply good_ex; [exact W|cbn; lia|cbn; lia|cbn; lia]|]. split; [exact W|]. split; [reflexivity|].
  split. { split; [exact W|]. split; [repeat split; cbn; lia|]. split; [in_points|]. split; [discriminate|]. intros p. vm_compute. tauto. }
  split; [exact cross_typed|]. split; [reflexivity|]. split; [cbn; lia|]. split; [split; [exact cross_typed|]; split; [cbn; lia|]; split; [cbn; lia|]; split; [cbn; lia|discriminate]|].
  split; [apply legal_threads; cbn; lia|]. split; intros k; apply one_thread_legal; cbn; lia.
Qed.
Theorem C88_zones_refuted : exists dse se im lbl mask res x y z, basins_call UINT8 dse se same_threads one_thread one_thread im im /\ label_enough im skiz_fuel /\ skiz_enough im skiz_fuel /\
  label skiz_fuel UINT8 dse se false im im = Some (Some (2, false, lbl)) /\ (forall x y z m, pixel_is mask x y z m -> m <> 0) /\ sz mask = sz im /\
  in_zone se lbl mask 2 x y z /\ inflBasins skiz_fuel UINT8 (fun _ => 0) same_threads one_thread one_thread dse se false im im = Some (Some (1, res)) /\ pixel_is res x y z 1.
Proof.
  exists (CrossSE 1), (CrossSE 1), two_parts, two_labels, everywhere, (Img (Dims 3 3 1) [1;2;2; 1;1;2; 1;1;1]), 2, 2, 0. split; [apply two_parts_call; auto|].
  split; [unfold label_enough, skiz_fuel; cbn [length pixs two_parts]; lia|]. split; [apply skiz_fuel_ok; cbn; lia|]. split; [vm_compute; reflexivity|].
  split. { intros x y z m (_ & R). apply rd_In in R. vm_compute in R. intuition lia. }
  split; [reflexivity|]. split; [|split; [vm_compute; reflexivity|split; [unfold inside; cbn; lia|reflexivity]]].
  assert (OK : skiz_ok UINT8 (CrossSE 1) same_threads two_labels two_labels' everywhere).
  { split; [left; reflexivity|]. split; [apply good_ex; [split; [repeat split; cbn; lia|reflexivity]|cbn; lia|cbn; lia|cbn; lia]|]. split; [split; [repeat split; cbn; lia|reflexivity]|]. split; [split; [repeat split; cbn; lia|reflexivity]|].
    split; [reflexivity|]. split; [reflexivity|]. split; [typed_px|]. split; [typed_px|]. split; [typed_px|]. split; [cbn; lia|]. split; [exact cross_typed|]. split; [reflexivity|]. split; [cbn; lia|].
    split; [apply legal_threads; cbn; lia|]. apply complement_check; [split; [repeat split; cbn; lia|reflexivity]|reflexivity|vm_compute; reflexivity]. }
  destruct (lblSkiz_ok skiz_fuel UINT8 (fun _ => 0) _ _ _ _ _ OK) as (r1 & r2 & E & Hz); [apply skiz_fuel_ok; cbn; lia|].
  assert (E' : lblSkiz skiz_fuel UINT8 (fun _ => 0) same_threads (CrossSE 1) two_labels two_labels' everywhere =
    Some (Some (1, (Img (Dims 3 3 1) [1;2;2; 1;1;2; 1;1;2], Img (Dims 3 3 1) [254;254;253; 254;254;253; 254;254;253])))) by (vm_compute; reflexivity).
  rewrite E' in E. injection E as <- <-. destruct Hz as (_ & _ & _ & _ & _ & _ & Hz). destruct (Hz 2 2 0 2 253) as [(_ & A & _) | [(l & Z & <- & _) | (_ & _ & _ & D)]].
  - split; [unfold inside; cbn; lia|reflexivity].
  - split; [unfold inside; cbn; lia|reflexivity].
  - discriminate.
  - exact Z.
  - cbn in D. lia.
Qed.
Print Assumptions C88_zones_refuted.
Example C88_case : basins_call UINT8 (CrossSE 1) (CrossSE 1) same_threads one_thread one_thread two_parts two_parts /\ label_enough two_parts skiz_fuel /\ skiz_enough two_parts skiz_fuel /\
  inflBasins skiz_fuel UINT8 (fun _ => 0) same_threads one_thread one_thread (CrossSE 1) (CrossSE 1) false two_parts two_parts = Some (Some (1, Img (Dims 3 3 1) [1;2;2; 1;1;2; 1;1;1])).
Proof. split; [apply two_parts_call; auto|]. split; [unfold label_enough, skiz_fuel; cbn [length pixs two_parts]; lia|]. split; [apply skiz_fuel_ok; cbn; lia|]. vm_compute. reflexivity. Qed.

(** ** C89.  inflZones erodes with an element without points: the erosion is what the memory held, and so is the result.  When
    it held 65535 everywhere, the result is blank whatever the image. *)
Theorem C89_blank_partial : forall fuel t cs c1 c2 c3 c4 dse se im out, let junk := fun _ => 65535 in (t = UINT8 \/ t = UINT16) ->
  basins_call UINT16 dse se cs c1 c2 im (new_img junk im) -> (forall k, legal_conf (dh (sz im)) (c3 k)) -> sz out = sz im -> label_enough im fuel -> skiz_enough im fuel ->
  exists res, inflZones fuel t junk cs c1 c2 c3 c4 dse se im out = Some (Some (1, res)) /\ sz res = sz im /\ wf_img res /\ forall x y z v, pixel_is res x y z v -> v = 0.
Proof. exact inflZones_blank. Qed.
Print Assumptions C89_blank_partial.

(** C89.  The result depends on the contents of the memory. *)
Theorem C89_memory_refuted : exists dse se im junk junk' A B, basins_call UINT16 dse se same_threads one_thread one_thread im im /\ label_enough im skiz_fuel /\ skiz_enough im skiz_fuel /\
  inflZones skiz_fuel UINT8 junk same_threads one_thread one_thread one_thread one_thread dse se im im = Some (Some (1, A)) /\
  inflZones skiz_fuel UINT8 junk' same_threads one_thread one_thread one_thread one_thread dse se im im = Some (Some (1, B)) /\
  (forall x y z v, pixel_is A x y z v -> v = 0) /\ (forall x y z v, pixel_is B x y z v -> v = 255).
Proof.
  exists (CrossSE 1), (CrossSE 1), two_parts, (fun _ => 65535), (fun _ => 0), (Img (Dims 3 3 1) (repeat 0 9)), (Img (Dims 3 3 1) (repeat 255 9)). split; [apply two_parts_call; auto|].
  split; [unfold label_enough, skiz_fuel; cbn [length pixs two_parts]; lia|]. split; [apply skiz_fuel_ok; cbn; lia|]. split; [vm_compute; reflexivity|]. split; [vm_compute; reflexivity|].
  split; intros x y z v (_ & R); apply rd_In in R; vm_compute in R; intuition lia.
Qed.
Print Assumptions C89_memory_refuted.
Example C89_case : basins_call UINT16 (CrossSE 1) (CrossSE 1) same_threads one_thread one_thread two_parts (new_img (fun _ => 65535) two_parts) /\ label_enough two_parts skiz_fuel /\ skiz_enough two_parts skiz_fuel.
Proof.
  destruct (two_parts_call UINT16 (or_intror eq_refl)) as (A & B & _ & _ & H). split; [|split; [unfold label_enough, skiz_fuel; cbn [length pixs two_parts]; lia|apply skiz_fuel_ok; cbn; lia]].
  split; [exact A|]. split; [exact B|]. split; [split; [repeat split; cbn; lia|reflexivity]|]. split; [reflexivity|exact H].
Qed.

(** ** C90.  waterfall rebuilds the gradient from its values on the lines and floods the result from its minima. *)
Lemma waterfall_ok fuel t junk dse se g ws go wo : geo1_ok t se g go -> wf_img ws -> sz ws = sz g -> sz wo = sz g -> enough g fuel -> symmetric_se se -> distinct_points se -> se_size se <= 1 -> 0 < dw (sz g) ->
  exists g' ws', waterfall fuel t junk dse se g ws go wo = Some (Some (1, (g', ws'))) /\ one_fall t se g ws g' ws'.
Proof.
  intros (Ht & W & So & T & I1 & I2 & HP) Ww Sw Swo Hf Hy Hd Hz Hw. set (mk := pw2 (fun c a => px_test c a (tmax t)) ws g).
  assert (Wm : wf_img mk) by (apply pw2_wf; auto).
  assert (Pm : forall x y z w v, pixel_is ws x y z w -> pixel_is g x y z v -> pixel_is mk x y z (if w =? 0 then tmax t else v)).
  { intros x y z w v Pw Pv. pose proof (pw2_is (fun c a => px_test c a (tmax t)) ws g x y z w v Pw Pv Sw) as Q. unfold px_test, nz in Q. destruct (w =? 0); exact Q. }
  assert (Tm : typed_img t mk).
  { apply typed_all; [exact Wm|]. intros x y z v P. destruct (pixel_exists ws x y z Ww) as (w & Pw); [apply P|]. destruct (pixel_exists g x y z W) as (u & Pu); [rewrite <- Sw; apply P|].
    rewrite (pixel_is_fun _ _ _ _ _ _ P (Pm _ _ _ _ _ Pw Pu)). destruct (w =? 0); [unfold inty; destruct Ht as [-> | ->]; cbn; lia|exact (Proofs.ZonesProofs.typed_at _ _ _ _ _ _ T Pu)]. }
  destruct (dualBuild_ok fuel t se mk g go) as (G & EG & HG & TG). { split; [exact Ht|]. split; [exact Wm|]. split; [exact W|]. split; [exact Sw|]. repeat (split; [assumption|]). exact HP. } { exact Hf. }
  pose proof HG as (SG & WG & _).
  destruct (C54_watershed fuel t junk dse se G mk) as (mks & li & ba & EW & HM & HW); auto.
  { split; [exact Ht|]. split; [exact WG|]. split; [cbn; congruence|]. split; [exact TG|]. rewrite SG. auto. }
  { unfold enough in *. destruct WG as (_ & LG), W as (_ & L). rewrite SG in LG. lia. }
  { rewrite SG. exact Hw. }
  exists G, li. split.
  - unfold waterfall. rewrite !same_size_true by auto. cbn [andb negb]. fold mk. rewrite EG. cbn [fuel_bind snd]. rewrite EW. reflexivity.
  - split; [exists mk; split; [exact Sw|auto]|]. split; [exact TG|]. exists mks, ba. auto.
Qed.

Theorem C90_waterfall : forall fuel t junk dse se g ws go wo, geo1_ok t se g go -> wf_img ws -> sz ws = sz g -> sz wo = sz g -> enough g fuel -> symmetric_se se -> distinct_points se -> se_size se <= 1 -> 0 < dw (sz g) ->
  exists g' ws', waterfall fuel t junk dse se g ws go wo = Some (Some (1, (g', ws'))) /\ one_fall t se g ws g' ws'.
Proof. exact waterfall_ok. Qed.
Print Assumptions C90_waterfall.

(** C90.  A waterfall raises the gradient, and keeps it on the lines. *)
Theorem C90_kept : forall t se g ws g' ws', wf_img g -> wf_img ws -> sz ws = sz g -> typed_img t g -> one_fall t se g ws g' ws' ->
  le_img g g' /\ forall x y z w v, pixel_is ws x y z w -> w <> 0 -> pixel_is g x y z v -> pixel_is g' x y z v.
Proof.
  intros t se g ws g' ws' W Ww Sw T ((mk & Sm & Wm & Pm & SG & WG & HG) & _).
  assert (FL : forall x y z v, flows Z.max se mk g x y z v -> forall u, pixel_is g x y z u -> u <= v).
  { intros x y z v F. destruct F as [x y z a b Pa Pb|x y z x' y' z' v b F S Pb]; intros u Pu; rewrite (pixel_is_fun _ _ _ _ _ _ Pu Pb); lia. }
  assert (LE : forall x y z u v, pixel_is g x y z u -> pixel_is g' x y z v -> u <= v) by (intros x y z u v Pu Pv; eapply FL; [apply HG; exact Pv|exact Pu]).
  split; [exact LE|]. intros x y z w v Pw Nw Pv. destruct (pixel_exists g' x y z WG) as (v' & Pv'); [rewrite SG; apply Pv|].
  assert (v' <= v). { apply (HG x y z v' Pv'). rewrite <- (Z.max_id v) at 1. apply flow_start; [|exact Pv]. pose proof (Pm _ _ _ _ _ Pw Pv) as Q. destruct (w =? 0) eqn:E; [lia|exact Q]. }
  replace v with v'; [exact Pv'|]. pose proof (LE _ _ _ _ _ Pv Pv'). lia.
Qed.
Print Assumptions C90_kept.

(** C90.  The function with levels does as many waterfalls as asked, from the watershed of the gradient. *)
Lemma loop_ok fuel t junk dse se n : forall g g2 ws, geo1_ok t se g g2 -> wf_img ws -> sz ws = sz g -> enough g fuel -> symmetric_se se -> distinct_points se -> se_size se <= 1 -> 0 < dw (sz g) ->
  exists ws', waterfall_loop n fuel t junk dse se g g2 ws = Some (Some ws') /\ falls t se n g ws ws'.
Proof.
  induction n as [|n IH]; intros g g2 ws G Ww Sw Hf Hy Hd Hz Hw; [exists ws; split; reflexivity|]. cbn [waterfall_loop].
  destruct (waterfall_ok fuel t junk dse se g ws g2 ws G Ww Sw Sw Hf Hy Hd Hz Hw) as (g' & w' & E & F). rewrite E. cbn [fuel_bind fst snd].
  pose proof G as (Ht & W & So & T & I1 & I2 & HP). pose proof F as ((mk & _ & _ & _ & SG & WG & _) & TG & mks & ba & (SM & _) & (SL & WL & _)).
  destruct (IH g' g' w') as (w2 & E2 & F2); auto.
  - split; [exact Ht|]. split; [exact WG|]. split; [reflexivity|]. split; [exact TG|]. rewrite SG. auto.
  - congruence.
  - unfold enough in *. destruct WG as (_ & LG), W as (_ & L). rewrite SG in LG. lia.
  - rewrite SG. exact Hw.
  - exists w2. split; [exact E2|]. cbn [falls]. exists g', w'. auto.
Qed.
Theorem C90_levels : forall fuel t junk dse se n g out, geo1_ok t se g out -> enough g fuel -> symmetric_se se -> distinct_points se -> se_size se <= 1 -> 0 < dw (sz g) ->
  exists markers w0 basins ws, labels_zones se (is_min t se g) g markers /\ watershed_ok t se g markers w0 basins /\
    waterfall_levels fuel t junk dse se n g out = Some (Some (1, ws)) /\ falls t se (Z.to_nat n) g w0 ws.
Proof.
  intros fuel t junk dse se n g out G Hf Hy Hd Hz Hw. destruct (C54_watershed fuel t junk dse se g out G Hf Hy Hd Hz Hw) as (mk & w0 & ba & E & HM & HW).
  pose proof G as (Ht & W & So & H). destruct (loop_ok fuel t junk dse se (Z.to_nat n) g (new_img junk g) w0) as (ws & E2 & F); auto.
  - split; [exact Ht|]. split; [exact W|]. split; [reflexivity|exact H].
  - apply HW.
  - destruct HM as (SM & _), HW as (SL & _). congruence.
  - exists mk, w0, ba, ws. split; [exact HM|]. split; [exact HW|]. split; [|exact F]. unfold waterfall_levels. rewrite same_size_true by auto. cbn [negb]. rewrite E. cbn [fuel_bind snd]. rewrite E2. reflexivity.
Qed.
Print Assumptions C90_levels.

Definition range : img := Img (Dims 7 3 1) [0;3;1;9;1;4;0; 0;3;1;9;1;4;0; 0;3;1;9;1;4;0].
Example C90_case : geo1_ok UINT8 (CrossSE 1) range range /\ enough range 42 /\ symmetric_se (CrossSE 1) /\ distinct_points (CrossSE 1) /\
  watershed_minima 42 UINT8 (fun _ => 0) (CrossSE 1) (CrossSE 1) range range = Some (Some (1, Img (Dims 7 3 1) [0;255;0;255;0;255;0; 0;255;0;255;0;255;0; 0;255;0;255;0;255;0])) /\
  waterfall_levels 42 UINT8 (fun _ => 0) (CrossSE 1) (CrossSE 1) 1 range range = Some (Some (1, Img (Dims 7 3 1) [0;0;0;255;0;0;0; 0;0;0;255;0;0;0; 0;0;0;255;0;0;0])).
Proof.
  split. { split; [left; reflexivity|]. split; [split; [repeat split; cbn; lia|reflexivity]|]. split; [reflexivity|]. split; [typed_px|]. split; [repeat split; cbn; lia|]. split; [in_points|discriminate]. }
  split; [unfold enough; cbn; lia|]. split; [apply element_check_ok; vm_compute; reflexivity|]. split; [apply distinct_check_ok; vm_compute; reflexivity|]. split; vm_compute; reflexivity.
Qed.
