(** Theorems for C28, C29 and C50 to C53: labelling of connected components. *)
From Verif Require Import Proofs.LabelExtrema Props.P_Geodesic.

(** ** C28.  label: 0 exactly on the pixels of value 0; linked pixels (joined by a path of neighbours of equal values) have
    the same label.  When the number [n] of components is below the maximum of the label type: pixels of same nonzero label
    are linked, the labels used are exactly 1 to [n], and they are given in the order in which the raster scan meets the
    components.  [n] is the number of components: it is the least number of pixels that reach every nonzero pixel.  The
    propagation ends, without access outside an array. *)
Definition label_says (t2 : ity) (se : strelt) (im : img) (n : Z) (res : img) : Prop :=
  sz res = sz im /\ wf_img res /\
  (forall x y z v o, pixel_is im x y z v -> pixel_is res x y z o -> (o = 0 <-> v = 0)) /\
  (forall x y z x' y' z' o o', linked se eq im x y z x' y' z' -> pixel_is res x y z o -> pixel_is res x' y' z' o' -> o = o') /\
  ((exists reps, reaches_all se eq im reps /\ Z.of_nat (length reps) = n) /\ forall reps, reaches_all se eq im reps -> n <= Z.of_nat (length reps)) /\
  (n < tmax t2 ->
     (forall x y z x' y' z' o, pixel_is res x y z o -> pixel_is res x' y' z' o -> o <> 0 -> linked se eq im x y z x' y' z') /\
     (forall k, 1 <= k <= n <-> k <> 0 /\ exists x y z, pixel_is res x y z k) /\
     (forall k k' x y z, 1 <= k < k' -> pixel_is res x y z k' ->
        exists x' y' z', pixel_is res x' y' z' k /\ scan_pos (sz im) (x', y', z') < scan_pos (sz im) (x, y, z))).

Theorem C28_label : forall fuel t2 dse se im out, sz im = sz out -> label_ok se im -> label_enough im fuel ->
  exists n res, label fuel t2 dse se false im out = Some (Some (n, n >? tmax t2, res)) /\ label_says t2 (scaled se) im n res.
Proof.
  intros fuel t2 dse se im out Es Hok Hf. destruct (label_call fuel t2 dse se im out Es Hok Hf) as (seeds & res & E & L & L'). exists (Z.of_nat (length seeds)), res. split; [exact E|].
  pose proof L as (Sr & Wr & Cs & Ev). pose proof Hok as (Wi & Hs & Hp & HP & Hy).
  assert (Ez : forall x y z v o, pixel_is im x y z v -> pixel_is res x y z o -> (o = 0 <-> v = 0)) by (intros x y z v o P Po; symmetry; exact (label_zero_iff _ _ _ _ _ _ _ _ _ _ L' P Po)).
  split; [exact Sr|]. split; [exact Wr|]. split; [exact Ez|]. split; [|split; [split|]].
  - intros x y z x' y' z' o o' Lk P P'. apply eqb_linked in Lk. exact (linked_label t2 Z.eqb Z.eqb_sym se im res seeds Hok L' _ _ _ _ _ _ _ _ Lk P P').
  - exists seeds. split; [exact (proj1 (proj2 (proj2 (proj2 Cs))))|reflexivity].
  - intros reps Hr. exact (few_seeds t2 se im res seeds reps Hok L' Hr).
  - intros Hn. split; [|split].
    + intros x y z x' y' z' o P P' Ho. apply eqb_linked. exact (label_linked t2 Z.eqb Z.eqb_sym se im res seeds Hok L' _ _ _ _ _ _ _ Hn P P' Ho).
    + intros k. exact (used_labels t2 Z.eqb Z.eqb_sym se im res seeds Hok L' k Hn).
    + intros k k' x y z Hk P. destruct (pixel_exists im x y z Wi) as (v & Pv); [rewrite <- Sr; apply P|].
      destruct (labels_in_order Z.eqb Z.eqb_sym (scaled se) im Wi HP Hy t2 res seeds L' k k' x y z v Hn Hk P Pv) as (a & b & c & w & Pa & _ & _ & Lt).
      * intros Hv. assert (k' = 0) by (apply (Ez _ _ _ _ _ Pv P); exact Hv). lia.
      * exists a, b, c. auto.
Qed.
Print Assumptions C28_label.

(** C28.  lambdaLabel: the values of successive pixels differ by at most lambda; 0 on the pixels linked to no nonzero pixel
    (a pixel of value 0 may thus be labelled). *)
Theorem C28_lambdaLabel : forall fuel t2 lambda se im out, sz im = sz out -> label_ok se im -> label_enough im fuel ->
  exists n res, lambdaLabel fuel t2 lambda se im out = Some (Some (n, n >? tmax t2, res)) /\ sz res = sz im /\ wf_img res /\
    (forall x y z o, pixel_is res x y z o -> (o = 0 <-> forall x' y' z' v, pixel_is im x' y' z' v -> v <> 0 ->
        ~ linked (scaled se) (fun a b => Z.abs (a - b) <= lambda) im x' y' z' x y z)) /\
    (forall x y z x' y' z' o o', linked (scaled se) (fun a b => Z.abs (a - b) <= lambda) im x y z x' y' z' -> pixel_is res x y z o -> pixel_is res x' y' z' o' -> o = o') /\
    (n < tmax t2 -> forall x y z x' y' z' o, pixel_is res x y z o -> pixel_is res x' y' z' o -> o <> 0 ->
        linked (scaled se) (fun a b => Z.abs (a - b) <= lambda) im x y z x' y' z').
Proof.
  intros fuel t2 lambda se im out Es Hok Hf. destruct (label_exec_ok fuel t2 (lambda_cmp lambda) se im (lambda_sym lambda) Hok Hf) as (seeds & res & E & L). exists (Z.of_nat (length seeds)), res.
  assert (El : forall x y z x' y' z', linked (scaled se) (cmp_rel (lambda_cmp lambda)) im x y z x' y' z' <-> linked (scaled se) (fun a b => Z.abs (a - b) <= lambda) im x y z x' y' z')
    by (intros; split; apply linked_ext; intros; apply lambda_rel; assumption).
  split; [unfold lambdaLabel; rewrite (same_size_true _ _ Es); cbn [negb]; rewrite E; reflexivity|]. pose proof L as (Sr & Wr & _). split; [exact Sr|]. split; [exact Wr|]. split; [|split].
  - intros x y z o P. rewrite (zero_label t2 (lambda_cmp lambda) (lambda_sym lambda) se im res seeds L x y z o P). split; intros H x' y' z' v P' Hv Lk; apply El in Lk; exact (H x' y' z' v P' Hv Lk).
  - intros x y z x' y' z' o o' Lk P P'. apply El in Lk. exact (linked_label t2 _ (lambda_sym lambda) se im res seeds Hok L _ _ _ _ _ _ _ _ Lk P P').
  - intros Hn x y z x' y' z' o P P' Ho. apply El. exact (label_linked t2 _ (lambda_sym lambda) se im res seeds Hok L _ _ _ _ _ _ _ Hn P P' Ho).
Qed.
Print Assumptions C28_lambdaLabel.

(** C28.  The usual elements meet the hypotheses on the element. *)
Definition mem_point (p : point) (l : list point) : bool := existsb (point_eqb p) l.
Lemma mem_point_In p l : mem_point p l = true <-> In p l.
Proof.
  unfold mem_point. rewrite existsb_exists. split.
  - intros (q & H & E). destruct p as ((a, b), c), q as ((a', b'), c'). unfold point_eqb, px_, py_, pz_ in E. cbn [fst snd] in E. assert (a = a' /\ b = b' /\ c = c') as (-> & -> & ->) by lia. exact H.
  - intros H. exists p. split; [exact H|]. unfold point_eqb. lia.
Qed.
Definition element_check (se : strelt) : bool :=
  let a := se_points se in let b := se_points (transpose se) in
  forallb (fun p => mem_point p b) a && forallb (fun p => mem_point p a) b &&
  forallb (fun p => (Z.abs (px_ p) <? 2 ^ 30) && (Z.abs (py_ p) <? 2 ^ 30) && (Z.abs (pz_ p) <? 2 ^ 30)) a.
Lemma element_check_ok se : element_check se = true -> symmetric_se se /\ int_points se.
Proof.
  unfold element_check. cbv zeta. intros H. apply andb_prop in H as (H & H3). apply andb_prop in H as (H1 & H2). rewrite forallb_forall in H1, H2, H3. split.
  - intros p. split; intros Hp; apply mem_point_In; auto.
  - intros p Hp. specialize (H3 p Hp). lia.
Qed.
Theorem C28_elements : Forall (fun se => symmetric_se (scaled se) /\ int_points (scaled se))
  [SquSE 1; SquSE0 1; HexSE 1; HexSE0 1; CrossSE 1; HorizSE 1; VertSE 1; CubeSE 1; Cross3DSE 1; RhombicuboctahedronSE 1; SquSE 2; CrossSE 2; HexSE 2; CubeSE 2].
Proof. repeat (constructor; [apply element_check_ok; vm_compute; reflexivity|]). constructor. Qed.
Print Assumptions C28_elements.

Definition islands : img := Img (Dims 5 3 1) [7;7;0;2;2; 0;7;0;0;2; 3;0;0;7;0].
Lemma islands_ok : label_ok (CrossSE 1) islands.
Proof. split; [split; [repeat split; cbn; lia|reflexivity]|]. split; [repeat split; cbn; lia|]. split; [in_points|]. split; [discriminate|]. intros p. vm_compute. tauto. Qed.

Example C28_case : label_ok (CrossSE 1) islands /\ label_enough islands 15 /\
  label 15 UINT8 (HexSE 1) (CrossSE 1) false islands islands = Some (Some (4, false, Img (Dims 5 3 1) [1;1;0;2;2; 0;1;0;0;2; 3;0;0;4;0])) /\
  lambdaLabel 15 UINT8 3 (CrossSE 1) islands islands = Some (Some (3, false, Img (Dims 5 3 1) [1;1;2;2;2; 2;1;2;2;2; 2;2;2;3;2])).
Proof. split; [exact islands_ok|]. split; [unfold label_enough; cbn; lia|]. split; vm_compute; reflexivity. Qed.

(** C28.  With an element that is not symmetric, two linked pixels are counted as two components and label 1 is lost. *)
Definition leftSE : strelt := SE false SE_Generic 1 [(0, 0, 0); (-1, 0, 0)].
Theorem C28_asymmetric_refuted : exists se im res, wf_img im /\ int_sized (sz im) /\ int_points (scaled se) /\ planar (scaled se) (sz im) /\ label_enough im 2 /\
  label 2 UINT8 se se false im im = Some (Some (2, false, res)) /\ reaches_all (scaled se) eq im [(1, 0, 0)] /\ (forall x y z, ~ pixel_is res x y z 1).
Proof.
  exists leftSE, (Img (Dims 2 1 1) [1; 1]), (Img (Dims 2 1 1) [2; 2]).
  assert (P0 : pixel_is (Img (Dims 2 1 1) [1; 1]) 0 0 0 1) by (split; [cbv; repeat split; (discriminate || reflexivity)|reflexivity]).
  assert (P1 : pixel_is (Img (Dims 2 1 1) [1; 1]) 1 0 0 1) by (split; [cbv; repeat split; (discriminate || reflexivity)|reflexivity]).
  split; [split; [repeat split; cbn; lia|reflexivity]|]. split; [repeat split; cbn; lia|]. split; [in_points|]. split; [discriminate|]. split; [unfold label_enough; cbn; lia|]. split; [vm_compute; reflexivity|]. split.
  - intros x y z v (I & R) _. unfold inside in I. cbn in I. assert (y = 0 /\ z = 0 /\ (x = 0 \/ x = 1)) as (-> & -> & [-> | ->]) by lia; exists 1, 0, 0; (split; [left; reflexivity|]).
    + apply linked_next with 1 0 0 1 1; auto; [econstructor; exact P1|]. exists (-1, 0, 0). split; [cbv; auto|]. repeat split; reflexivity.
    + econstructor. exact P1.
  - intros x y z (I & R). unfold inside in I. cbn in I. assert (y = 0 /\ z = 0 /\ (x = 0 \/ x = 1)) as (-> & -> & [-> | ->]) by lia; discriminate.
Qed.
Print Assumptions C28_asymmetric_refuted.

(** ** C29.  Labels distinguish the components, and label warns when they do not. *)
(** The first part holds below the type maximum. *)
Theorem C29_distinct_partial : forall fuel t2 dse se im out n w res, sz im = sz out -> label_ok se im -> label_enough im fuel ->
  label fuel t2 dse se false im out = Some (Some (n, w, res)) -> n < tmax t2 ->
  forall x y z x' y' z' v v' o, pixel_is im x y z v -> pixel_is im x' y' z' v' -> v <> 0 -> pixel_is res x y z o -> pixel_is res x' y' z' o -> linked (scaled se) eq im x y z x' y' z'.
Proof.
  intros fuel t2 dse se im out n w res Es Hok Hf E Hn x y z x' y' z' v v' o Pv Pv' Hv P P'. destruct (C28_label fuel t2 dse se im out Es Hok Hf) as (n' & res' & E' & (_ & _ & Z0 & _ & _ & H)).
  rewrite E in E'. injection E' as <- _ <-. apply (H Hn) with o; auto. intros Ho. apply Hv. apply (Z0 _ _ _ _ _ Pv P). exact Ho.
Qed.
Print Assumptions C29_distinct_partial.

(** From the type maximum on, label 1 is given again: two pixels that are not linked have the same label. *)
Theorem C29_repeated : forall fuel t2 dse se im out n w res, sz im = sz out -> label_ok se im -> label_enough im fuel ->
  label fuel t2 dse se false im out = Some (Some (n, w, res)) -> tmax t2 <= n ->
  exists x y z x' y' z' v v' o, pixel_is im x y z v /\ v <> 0 /\ pixel_is im x' y' z' v' /\ v' <> 0 /\ pixel_is res x y z o /\ pixel_is res x' y' z' o /\
    ~ linked (scaled se) eq im x y z x' y' z'.
Proof.
  intros fuel t2 dse se im out n w res Es Hok Hf E Hn. destruct (label_call fuel t2 dse se im out Es Hok Hf) as (seeds & res' & E' & L & L'). rewrite E in E'. injection E' as -> -> <-.
  pose proof L' as (Sr & Wr & (Nz & So & Pw & Co & Fi) & Ev). pose proof Hok as (Wi & Hs & Hp & HP & Hy). pose proof (tmax_big t2) as B.
  destruct (rd_in_range seeds 0 ltac:(lia)) as (((x, y), z) & R). destruct (rd_in_range seeds (tmax t2 - 1) ltac:(lia)) as (((x', y'), z') & R').
  destruct (Nz _ _ _ (rd_In _ _ _ R)) as (v & Pv & Hv). destruct (Nz _ _ _ (rd_In _ _ _ R')) as (v' & Pv' & Hv').
  destruct (pixel_exists res x y z Wr) as (o & Po); [rewrite Sr; apply Pv|]. destruct (pixel_exists res x' y' z' Wr) as (o' & Po'); [rewrite Sr; apply Pv'|].
  pose proof (label_of_seed Z.eqb Z.eqb_sym (scaled se) im Wi HP Hy t2 res seeds L' _ _ _ _ _ _ _ _ R (linked_self _ _ _ _ _ _ _ Pv) Po) as E1.
  pose proof (label_of_seed Z.eqb Z.eqb_sym (scaled se) im Wi HP Hy t2 res seeds L' _ _ _ _ _ _ _ _ R' (linked_self _ _ _ _ _ _ _ Pv') Po') as E2.
  unfold cyclic_label in E1, E2. rewrite Z.mod_0_l in E1 by lia. replace (tmax t2 - 1 + 1 - 1) with (tmax t2 - 1) in E2 by lia. rewrite Z.mod_same in E2 by lia. subst o o'.
  exists x, y, z, x', y', z', v, v', 1. repeat (split; [assumption|]). intros Lk. apply eqb_linked in Lk. pose proof (Pw _ _ _ _ _ _ _ _ R R' Lk). lia.
Qed.
Print Assumptions C29_repeated.

(** The warning is missing when the number of components is exactly the type maximum. *)
Definition dots : img := Img (Dims 509 1 1) (map (fun i => (i + 1) mod 2) (zseq 509)).
Lemma dots_ok : label_ok (CrossSE 1) dots.
Proof. split; [split; [repeat split; cbn; lia|reflexivity]|]. split; [repeat split; cbn; lia|]. split; [in_points|]. split; [discriminate|]. intros p. vm_compute. tauto. Qed.
Theorem C29_no_warning_refuted : exists se im res x y z x' y' z' v v' o, label_ok se im /\ label_enough im 509 /\ label 509 UINT8 se se false im im = Some (Some (255, false, res)) /\
  pixel_is im x y z v /\ v <> 0 /\ pixel_is im x' y' z' v' /\ v' <> 0 /\ pixel_is res x y z o /\ pixel_is res x' y' z' o /\ ~ linked (scaled se) eq im x y z x' y' z'.
Proof.
  exists (CrossSE 1), dots. assert (HE : label_enough dots 509) by (unfold label_enough; vm_compute; lia).
  destruct (C28_label 509 UINT8 (CrossSE 1) (CrossSE 1) dots dots eq_refl dots_ok HE) as (n & res & E & _).
  assert (En : n = 255). { assert (Q : match label 509 UINT8 (CrossSE 1) (CrossSE 1) false dots dots with Some (Some (n, _, _)) => n | _ => 0 end = 255) by (vm_compute; reflexivity). rewrite E in Q. exact Q. }
  subst n. destruct (C29_repeated 509 UINT8 (CrossSE 1) (CrossSE 1) dots dots 255 _ res eq_refl dots_ok HE E ltac:(cbn; lia)) as (x & y & z & x' & y' & z' & v & v' & o & H).
  exists res, x, y, z, x', y', z', v, v', o. split; [exact dots_ok|]. split; [exact HE|]. split; [exact E|exact H].
Qed.
Print Assumptions C29_no_warning_refuted.

Example C29_case : label_ok (CrossSE 1) islands /\ label 15 UINT8 (HexSE 1) (CrossSE 1) false islands islands = Some (Some (4, false, Img (Dims 5 3 1) [1;1;0;2;2; 0;1;0;0;2; 3;0;0;4;0])) /\ 4 < tmax UINT8.
Proof. split; [exact islands_ok|]. split; [vm_compute; reflexivity|reflexivity]. Qed.

(** ** C50.  label in place: the structuring element is ignored, the default one is used. *)
Theorem C50_inplace_refuted : exists dse se im, label_ok se im /\ label_ok dse im /\ label_enough im 9 /\
  label 9 UINT8 dse se false im im = Some (Some (1, false, im)) /\ label 9 UINT8 dse se true im im = Some (Some (3, false, Img (Dims 3 3 1) [1;0;0; 0;2;0; 0;0;3])).
Proof.
  exists (CrossSE 1), (SquSE 1), (Img (Dims 3 3 1) [1;0;0; 0;1;0; 0;0;1]).
  assert (K : forall se, element_check se = true -> se_odd se = false -> scaled se = se -> label_ok se (Img (Dims 3 3 1) [1;0;0; 0;1;0; 0;0;1])).
  { intros se Hc Ho El. destruct (element_check_ok se Hc) as (A & B). unfold label_ok. rewrite El. split; [split; [repeat split; cbn; lia|reflexivity]|]. split; [repeat split; cbn; lia|]. split; [exact B|]. split; [|exact A]. unfold planar. rewrite Ho. discriminate. }
  split; [apply K; reflexivity|]. split; [apply K; reflexivity|]. split; [unfold label_enough; cbn; lia|]. split; vm_compute; reflexivity.
Qed.
Print Assumptions C50_inplace_refuted.

(** In place, label is right for calls that use the default element. *)
Theorem C50_inplace_partial : forall fuel t2 dse im, label_ok dse im -> label_enough im fuel ->
  exists n res, label fuel t2 dse dse true im im = Some (Some (n, n >? tmax t2, res)) /\ label_says t2 (scaled dse) im n res.
Proof. intros fuel t2 dse im Hok Hf. exact (C28_label fuel t2 dse dse im im eq_refl Hok Hf). Qed.
Print Assumptions C50_inplace_partial.

(** ** C51.  labelWithArea writes at every nonzero pixel the number of pixels of its component; labelWithVolume the sum of
    the values of the first image over the component (of the second image). *)
Theorem C51_labelWithArea : forall fuel t2 junk dse se im out reps, sz im = sz out -> wf_img out -> label_ok se im -> label_enough im fuel ->
  (exists x y z v, pixel_is im x y z v /\ v <> 0) ->
  reaches_all (scaled se) eq im reps -> Z.of_nat (length reps) < tmax t2 ->
  (forall x y z v l, pixel_is im x y z v -> v <> 0 -> component_list (scaled se) eq im x y z l -> Z.of_nat (length l) < tmax t2) ->
  exists res, labelWithArea fuel t2 junk dse se im out = Some (Some (1, res)) /\ sz res = sz im /\ wf_img res /\
    forall x y z v a, pixel_is im x y z v -> pixel_is res x y z a ->
      (v = 0 -> a = 0) /\ (v <> 0 -> exists l, component_list (scaled se) eq im x y z l /\ a = Z.of_nat (length l)).
Proof. exact labelWithArea_ok. Qed.
Print Assumptions C51_labelWithArea.

(** Areas that do not fit: the image is left as it was and 0 is returned. *)
Theorem C51_labelWithArea_reject : forall fuel t2 junk dse se im out reps x0 y0 z0 v0 l0, sz im = sz out -> label_ok se im -> label_enough im fuel ->
  pixel_is im x0 y0 z0 v0 -> v0 <> 0 ->
  reaches_all (scaled se) eq im reps -> Z.of_nat (length reps) < tmax t2 ->
  component_list (scaled se) eq im x0 y0 z0 l0 -> tmax t2 <= Z.of_nat (length l0) ->
  labelWithArea fuel t2 junk dse se im out = Some (Some (0, out)).
Proof. exact labelWithArea_reject. Qed.
Print Assumptions C51_labelWithArea_reject.

(** A line of 255 pixels. *)
Definition long_line : img := Img (Dims 255 1 1) (repeat 1 255).
Example C51_reject_case : label_ok (CrossSE 1) long_line /\ label_enough long_line 255 /\ pixel_is long_line 0 0 0 1 /\ reaches_all (scaled (CrossSE 1)) eq long_line [(0, 0, 0)] /\
  component_list (scaled (CrossSE 1)) eq long_line 0 0 0 (map (fun x => (x, 0, 0)) (zseq 255)) /\ tmax UINT8 <= Z.of_nat (length (map (fun x => (x, 0, 0)) (zseq 255))).
Proof.
  assert (Px : forall x, 0 <= x < 255 -> pixel_is long_line x 0 0 1).
  { intros x Hx. split; [repeat split; cbn; lia|]. unfold voxel_offset. cbn [long_line pixs sz dw dh]. replace (x + 255 * (0 + 1 * 0)) with x by lia. apply rd_repeat. lia. }
  assert (Lk : forall n, (n < 255)%nat -> linked (scaled (CrossSE 1)) eq long_line 0 0 0 (Z.of_nat n) 0 0).
  { induction n as [|n IH]; intros Hn; [apply linked_self with 1, Px; lia|]. apply linked_next with (Z.of_nat n) 0 0 1 1; [apply IH; lia|apply Px; lia|apply Px; lia| |reflexivity].
    exists (1, 0, 0). split; [vm_compute; tauto|]. split; [|split; reflexivity]. rewrite Nat2Z.inj_succ. unfold src_x. cbn. lia. }
  assert (Co : component_list (scaled (CrossSE 1)) eq long_line 0 0 0 (map (fun x => (x, 0, 0)) (zseq 255))).
  { split; [apply FinFun.Injective_map_NoDup; [intros a b E; congruence|apply zseq_NoDup]|]. intros x y z. rewrite in_map_iff. split.
    - intros (a & E & Ha). injection E as <- <- <-. apply zseq_In in Ha. rewrite <- (Z2Nat.id a) by lia. apply Lk. lia.
    - intros L. assert (I : inside (Dims 255 1 1) x y z) by (destruct L as [v P|? ? ? ? ? ? ? ? _ _ P _ _]; apply P). unfold inside in I. cbn in I. exists x. split; [repeat f_equal; lia|apply zseq_In; lia]. }
  split; [|split; [|split; [apply Px; lia|split; [|split; [exact Co|]]]]].
  - split; [split; [repeat split; cbn; lia|reflexivity]|]. split; [repeat split; cbn; lia|]. split; [in_points|]. split; [discriminate|]. intros p. vm_compute. tauto.
  - unfold label_enough. cbn. lia.
  - intros x y z v P _. exists 0, 0, 0. split; [left; reflexivity|]. apply Co. destruct P as (I & _). unfold inside in I. cbn in I. apply in_map_iff. exists x. split; [repeat f_equal; lia|apply zseq_In; lia].
  - rewrite map_length, zseq_length. cbn. lia.
Qed.

Theorem C51_labelWithVolume : forall fuel t2 junk dse se im labin out reps, sz im = sz out -> sz labin = sz im -> wf_img im -> wf_img out -> label_ok se labin -> label_enough labin fuel ->
  (exists x y z v, pixel_is labin x y z v /\ v <> 0) ->
  reaches_all (scaled se) eq labin reps -> Z.of_nat (length reps) < tmax t2 ->
  (forall u, In u (pixs im) -> Z.abs u <= 2 ^ 22) ->
  (forall x y z v l, pixel_is labin x y z v -> v <> 0 -> component_list (scaled se) eq labin x y z l -> tmin t2 <= sum_on im l < tmax t2) ->
  exists res, labelWithVolume fuel t2 junk dse se im labin out = Some (Some (1, res)) /\ sz res = sz im /\ wf_img res /\
    forall x y z v a, pixel_is labin x y z v -> pixel_is res x y z a ->
      (v = 0 -> a = 0) /\ (v <> 0 -> exists l, component_list (scaled se) eq labin x y z l /\ a = sum_on im l).
Proof. exact labelWithVolume_ok. Qed.
Print Assumptions C51_labelWithVolume.

(** The list of a component is determined up to order, hence so are its length and sum. *)
Theorem C51_component : forall se im x y z l l', component_list se eq im x y z l -> component_list se eq im x y z l' -> length l = length l' /\ forall im', sum_on im' l = sum_on im' l'.
Proof. intros se im x y z l l' H H'. pose proof (component_list_fun _ _ _ _ _ _ _ H H') as P. split; [apply Permutation.Permutation_length; exact P|]. intros im'. apply sum_on_perm. exact P. Qed.
Print Assumptions C51_component.

Lemma islands_pixel x y z v : pixel_is islands x y z v -> exists k, 0 <= k < 15 /\ k = voxel_offset 5 3 x y z /\ rd (pixs islands) k = Some v /\ z = 0 /\ x = k mod 5 /\ y = k / 5.
Proof.
  intros (I & R). unfold inside in I. cbn in I. exists (voxel_offset 5 3 x y z). unfold voxel_offset in *. cbn [sz islands dw dh] in R. assert (z = 0) by lia. subst z.
  split; [lia|]. split; [reflexivity|]. split; [exact R|]. split; [reflexivity|]. replace (x + 5 * (y + 3 * 0)) with (x + y * 5) by ring. split; [rewrite Z.mod_add, Z.mod_small; lia|]. rewrite Z.div_add, Z.div_small; lia.
Qed.

(** No list of pixels of the image without repetition is longer than the image. *)
Lemma component_short se im x y z l : wf_img im -> component_list se eq im x y z l -> (length l <= length (pixs im))%nat.
Proof.
  intros W (N & H). assert (I : forall a b c, In (a, b, c) l -> inside (sz im) a b c). { intros a b c Hl. apply H in Hl. destruct Hl as [v [I _]|x1 y1 z1 u x2 y2 z2 v _ _ [I _] _ _]; exact I. }
  rewrite <- (map_length (scan_pos (sz im))). rewrite <- (Nat2Z.id (length (pixs im))). destruct W as [Wd Wl]. rewrite <- (zseq_length (Z.of_nat (length (pixs im)))). apply NoDup_incl_length.
  - clear H. induction N as [|((a, b), c) l Hn N IH]; [constructor|]. cbn [map]. constructor; [|apply IH; intros; apply I; right; assumption].
    intros Hin. apply in_map_iff in Hin as (((a', b'), c') & E & Hin). cbn in E. destruct (voxel_inj (sz im) a' b' c' a b c) as (-> & -> & ->); [apply I; right; exact Hin|apply I; left; reflexivity|exact E|contradiction].
  - intros k Hk. apply in_map_iff in Hk as (((a, b), c) & <- & Hk). apply zseq_In. rewrite Wl. cbn. apply inside_range. apply I. exact Hk.
Qed.

Example C51_case : label_ok (CrossSE 1) islands /\ (exists x y z v, pixel_is islands x y z v /\ v <> 0) /\
  (exists reps, reaches_all (scaled (CrossSE 1)) eq islands reps /\ Z.of_nat (length reps) < tmax UINT8) /\
  (forall x y z v l, pixel_is islands x y z v -> v <> 0 -> component_list (scaled (CrossSE 1)) eq islands x y z l -> Z.of_nat (length l) < tmax UINT8) /\
  labelWithArea 15 UINT8 (fun _ => 0) (HexSE 1) (CrossSE 1) islands islands = Some (Some (1, Img (Dims 5 3 1) [3;3;0;3;3; 0;3;0;0;3; 1;0;0;1;0])) /\
  labelWithVolume 15 UINT8 (fun _ => 0) (HexSE 1) (CrossSE 1) islands islands islands = Some (Some (1, Img (Dims 5 3 1) [21;21;0;6;6; 0;21;0;0;6; 3;0;0;7;0])).
Proof.
  split; [exact islands_ok|]. split; [exists 0, 0, 0, 7; split; [split; [cbv; repeat split; (discriminate || reflexivity)|reflexivity]|lia]|].
  split; [|split; [|split; vm_compute; reflexivity]].
  - destruct (C28_label 15 UINT8 (HexSE 1) (CrossSE 1) islands islands eq_refl islands_ok) as (n & res & E & (_ & _ & _ & _ & ((reps & Hr & Hn) & _) & _)); [unfold label_enough; cbn; lia|].
    exists reps. split; [exact Hr|]. rewrite Hn. assert (Q : label 15 UINT8 (HexSE 1) (CrossSE 1) false islands islands = Some (Some (4, false, Img (Dims 5 3 1) [1;1;0;2;2; 0;1;0;0;2; 3;0;0;4;0]))) by (vm_compute; reflexivity).
    rewrite Q in E. injection E as <- _. cbn. lia.
  - intros x y z v l _ _ Hl. apply component_short in Hl; [cbn in Hl |- *; lia|apply islands_ok].
Qed.

(** ** C52.  areaThreshold keeps the components of a binary image whose area is at least (gt) or at most (not gt) the
    threshold; on a label image, the labels of such an area.  Proved when one thread executes the loop, or when no pixel is
    0. *)
Theorem C52_areaThreshold_binary_partial : forall fuel t2 junk dse sched th gt im out reps c, sz im = sz out -> wf_img out -> label_ok dse im -> label_enough im fuel ->
  two_valued im c -> reaches_all (scaled dse) eq im reps -> Z.of_nat (length reps) < tmax t2 ->
  (forall i j, 0 <= i < Z.of_nat (length (pixs im)) -> 0 <= j < Z.of_nat (length (pixs im)) -> sched i = sched j) ->
  exists res, areaThreshold fuel t2 junk dse sched th gt im out = Some (Some (1, res)) /\ sz res = sz im /\ wf_img res /\
    forall x y z v a, pixel_is im x y z v -> pixel_is res x y z a ->
      (v = 0 -> a = 0) /\ (v <> 0 -> exists l, component_list (scaled dse) eq im x y z l /\ a = if area_keep gt th (Z.of_nat (length l)) then tmax t2 else 0).
Proof. exact areaThreshold_binary. Qed.
Print Assumptions C52_areaThreshold_binary_partial.

Theorem C52_areaThreshold_labels_partial : forall fuel t2 junk dse sched th gt im out, sz im = sz out -> wf_img im -> wf_img out -> typed_img t2 im -> (forall c, ~ two_valued im c) ->
  0 < dw (sz im) -> Z.of_nat (length (pixs im)) <= 2 ^ 53 ->
  (forall i j, 0 <= i < Z.of_nat (length (pixs im)) -> 0 <= j < Z.of_nat (length (pixs im)) -> sched i = sched j) \/ ~ In 0 (pixs im) ->
  exists res, areaThreshold fuel t2 junk dse sched th gt im out = Some (Some (1, res)) /\ sz res = sz im /\ wf_img res /\
    forall x y z v a, pixel_is im x y z v -> pixel_is res x y z a -> a = if area_keep gt th (Z.of_nat (count_occ Z.eq_dec (pixs im) v)) then v else 0.
Proof. exact areaThreshold_labels. Qed.
Print Assumptions C52_areaThreshold_labels_partial.

(** With two threads, on any binary image, the table is modified by one thread while another one uses it. *)
Theorem C52_race_refuted : forall fuel t2 junk dse sched th gt im out c i j, sz im = sz out -> label_ok dse im -> label_enough im fuel -> two_valued im c ->
  0 <= i < Z.of_nat (length (pixs im)) -> 0 <= j < Z.of_nat (length (pixs im)) -> sched i <> sched j ->
  areaThreshold fuel t2 junk dse sched th gt im out = None.
Proof. exact areaThreshold_race. Qed.
Print Assumptions C52_race_refuted.

Definition islands2 : img := Img (Dims 5 3 1) [1;1;0;1;1; 0;1;0;0;1; 1;0;0;1;0].
Example C52_case : label_ok (CrossSE 1) islands2 /\ two_valued islands2 1 /\ (exists reps, reaches_all (scaled (CrossSE 1)) eq islands2 reps /\ Z.of_nat (length reps) < tmax UINT8) /\
  areaThreshold 15 UINT8 (fun _ => 0) (CrossSE 1) (fun _ => 0) 3 true islands2 islands2 = Some (Some (1, Img (Dims 5 3 1) [255;255;0;255;255; 0;255;0;0;255; 0;0;0;0;0])) /\
  areaThreshold 15 UINT8 (fun _ => 0) (CrossSE 1) (fun i => i / 8) 3 true islands2 islands2 = None /\
  areaThreshold 15 UINT8 (fun _ => 0) (CrossSE 1) (fun _ => 0) 1 false islands islands = Some (Some (1, Img (Dims 5 3 1) [0;0;0;0;0; 0;0;0;0;0; 3;0;0;0;0])).
Proof.
  assert (HO : label_ok (CrossSE 1) islands2). { split; [split; [repeat split; cbn; lia|reflexivity]|]. split; [repeat split; cbn; lia|]. split; [in_points|]. split; [discriminate|]. intros p. vm_compute. tauto. }
  split; [exact HO|]. split; [split; [lia|]; cbn; split; [auto|split; [auto|intros v Hv; lia]]|]. split; [|repeat split; vm_compute; reflexivity].
  destruct (C28_label 15 UINT8 (HexSE 1) (CrossSE 1) islands2 islands2 eq_refl HO) as (n & res & E & (_ & _ & _ & _ & ((reps & Hr & Hn) & _) & _)); [unfold label_enough; cbn; lia|].
  exists reps. split; [exact Hr|]. rewrite Hn. assert (Q : label 15 UINT8 (HexSE 1) (CrossSE 1) false islands2 islands2 = Some (Some (4, false, Img (Dims 5 3 1) [1;1;0;2;2; 0;1;0;0;2; 3;0;0;4;0]))) by (vm_compute; reflexivity).
  rewrite Q in E. injection E as <- _. cbn. lia.
Qed.

(** ** C53.  minimaLabeled (maximaLabeled) gives a nonzero label exactly on the regional minima (maxima), the same one to
    two pixels exactly when they belong to the same plateau.  No label exceeds the number of plateaus. *)
Theorem C53_minimaLabeled : forall fuel t t2 junk dse se im out reps, geo1_ok t se im out -> enough im fuel -> symmetric_se se -> se_size se <= 1 ->
  (forall x y z v, pixel_is im x y z v -> is_min t se im x y z v -> exists a b c, In (a, b, c) reps /\ linked se eq im x y z a b c) -> Z.of_nat (length reps) < tmax t2 ->
  exists res, minimaLabeled fuel t t2 junk dse se im out = Some (Some (1, res)) /\ labels_zones se (is_min t se im) im res /\
    (forall x y z o, pixel_is res x y z o -> 0 <= o <= Z.of_nat (length reps)).
Proof. exact minimaLabeled_ok. Qed.
Print Assumptions C53_minimaLabeled.

Theorem C53_maximaLabeled : forall fuel t t2 junk dse se im out reps, geo1_ok t se im out -> enough im fuel -> symmetric_se se -> se_size se <= 1 ->
  (forall x y z v, pixel_is im x y z v -> is_max t se im x y z v -> exists a b c, In (a, b, c) reps /\ linked se eq im x y z a b c) -> Z.of_nat (length reps) < tmax t2 ->
  exists res, maximaLabeled fuel t t2 junk dse se im out = Some (Some (1, res)) /\ labels_zones se (is_max t se im) im res /\
    (forall x y z o, pixel_is res x y z o -> 0 <= o <= Z.of_nat (length reps)).
Proof. exact maximaLabeled_ok. Qed.
Print Assumptions C53_maximaLabeled.

(** All the pixels of the image reach everything: the hypotheses on the number of minima hold for a small image. *)
Example C53_case : geo1_ok UINT8 (CrossSE 1) bumps bumps /\ enough bumps 30 /\ symmetric_se (CrossSE 1) /\
  (exists reps, (forall x y z v, pixel_is bumps x y z v -> is_min UINT8 (CrossSE 1) bumps x y z v -> exists a b c, In (a, b, c) reps /\ linked (CrossSE 1) eq bumps x y z a b c) /\ Z.of_nat (length reps) < tmax UINT8) /\
  minimaLabeled 30 UINT8 UINT8 (fun _ => 0) (HexSE 1) (CrossSE 1) bumps bumps = Some (Some (1, Img (Dims 5 3 1) [0;0;0;0;0; 0;1;0;2;0; 0;0;0;0;3])).
Proof.
  split; [exact bumps_ok|]. split; [unfold enough; cbn; lia|]. split; [intros p; vm_compute; tauto|]. split; [|vm_compute; reflexivity].
  exists (map (fun k => (k mod 5, k / 5, 0)) (zseq 15)). split; [|vm_compute; reflexivity]. intros x y z v P _. exists x, y, z. split; [|econstructor; exact P].
  destruct P as (I & _). unfold inside in I. cbn in I. apply in_map_iff. exists (x + y * 5). split; [|apply zseq_In; lia].
  rewrite Z.mod_add, Z.mod_small, Z.div_add, Z.div_small by lia. repeat f_equal; lia.
Qed.
