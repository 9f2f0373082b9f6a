(** Theorems for C30 to C32, C48 and C49: geodesic reconstruction and the operators built on it. *)
From Verif Require Proofs.TransformProofs2.
From Verif Require Import Proofs.GeodesicFilters Proofs.PixelProofs Props.P_Morph.

(** ** C30.  build gives, at every pixel, the highest level that flows there from the marker under the mask: the maximum
    over all paths of the minimum of the marker at its start and of the mask along it.  dualBuild gives the lowest level
    along paths limited from below.  The flooding ends, without access outside an array, whatever the sizes. *)
Theorem C30_build : forall fuel t se marker mask out, geo_ok t se marker mask out -> enough mask fuel ->
  exists R, build fuel t se false marker mask out = Some (Some (1, R)) /\ rebuilt se marker mask R /\ typed_img t R.
Proof. exact build_ok. Qed.
Print Assumptions C30_build.

Theorem C30_dualBuild : forall fuel t se marker mask out, geo_ok t se marker mask out -> enough mask fuel ->
  exists R, dualBuild fuel t se false marker mask out = Some (Some (1, R)) /\ dual_rebuilt se marker mask R /\ typed_img t R.
Proof. exact dualBuild_ok. Qed.
Print Assumptions C30_dualBuild.

(** C30.  The specification determines the image. *)
Theorem C30_unique : forall se marker mask A B,
  (rebuilt se marker mask A -> rebuilt se marker mask B -> A = B) /\ (dual_rebuilt se marker mask A -> dual_rebuilt se marker mask B -> A = B).
Proof. intros. split; [apply rebuilt_fun|apply dual_rebuilt_fun]. Qed.
Print Assumptions C30_unique.

(** C30.  Level by level: a pixel reaches level [l] exactly when it is joined, within the pixels where the mask reaches
    [l], to a pixel where the marker reaches [l]. *)
Theorem C30_levels : forall fuel t se marker mask out r R x y z v l, geo_ok t se marker mask out -> enough mask fuel ->
  build fuel t se false marker mask out = Some (Some (r, R)) -> pixel_is R x y z v ->
  (l <= v <-> joined se (fun b => l <= b) (fun x y z => exists a, pixel_is marker x y z a /\ l <= a) mask x y z).
Proof.
  intros fuel t se marker mask out r R x y z v l G F H Hv. destruct (build_ok fuel t se marker mask out G F) as (R0 & E & HR & _). rewrite E in H. injection H as <- <-.
  eapply rebuilt_level; eassumption.
Qed.
Print Assumptions C30_levels.

Theorem C30_dual_levels : forall fuel t se marker mask out r R x y z v l, geo_ok t se marker mask out -> enough mask fuel ->
  dualBuild fuel t se false marker mask out = Some (Some (r, R)) -> pixel_is R x y z v ->
  (v <= l <-> joined se (fun b => b <= l) (fun x y z => exists a, pixel_is marker x y z a /\ a <= l) mask x y z).
Proof.
  intros fuel t se marker mask out r R x y z v l G F H Hv. destruct (dualBuild_ok fuel t se marker mask out G F) as (R0 & E & HR & _). rewrite E in H. injection H as <- <-.
  eapply dual_rebuilt_level; eassumption.
Qed.
Print Assumptions C30_dual_levels.

(** C30.  The result lies between the marker limited by the mask and the mask. *)
Theorem C30_between : forall fuel t se marker mask out r R x y z a b v, geo_ok t se marker mask out -> enough mask fuel ->
  pixel_is marker x y z a -> pixel_is mask x y z b -> pixel_is R x y z v ->
  (build fuel t se false marker mask out = Some (Some (r, R)) -> Z.min a b <= v <= b) /\
  (dualBuild fuel t se false marker mask out = Some (Some (r, R)) -> b <= v <= Z.max a b).
Proof.
  intros fuel t se marker mask out r R x y z a b v G F Ha Hb Hv. split; intros H.
  - destruct (build_ok fuel t se marker mask out G F) as (R0 & E & HR & _). rewrite E in H. injection H as <- <-. eapply rebuilt_between; eassumption.
  - destruct (dualBuild_ok fuel t se marker mask out G F) as (R0 & E & HR & _). rewrite E in H. injection H as <- <-. eapply dual_rebuilt_between; eassumption.
Qed.
Print Assumptions C30_between.

(** C30.  Idempotence: reconstructing from the result gives the result. *)
Theorem C30_idempotent : forall fuel fuel' t se marker mask out out' r R, geo_ok t se marker mask out -> enough mask fuel -> enough mask fuel' -> sz out' = sz mask ->
  (build fuel t se false marker mask out = Some (Some (r, R)) -> build fuel' t se false R mask out' = Some (Some (1, R))) /\
  (dualBuild fuel t se false marker mask out = Some (Some (r, R)) -> dualBuild fuel' t se false R mask out' = Some (Some (1, R))).
Proof.
  intros fuel fuel' t se marker mask out out' r R G F F' So. pose proof G as (Ht & Wk & W & S & S' & T1 & T2 & I & P & Pl). split; intros H.
  - destruct (build_ok fuel t se marker mask out G F) as (R0 & E & HR & TR). rewrite E in H. injection H as <- <-. pose proof HR as (SR & WR & _).
    destruct (build_ok fuel' t se R0 mask out') as (R1 & E1 & HR1 & _); [|exact F'|].
    { repeat (split; [first [assumption|congruence]|]). assumption. }
    rewrite E1. rewrite (rebuilt_fun se R0 mask R1 R0); auto. apply (rebuilt_idem se marker); assumption.
  - destruct (dualBuild_ok fuel t se marker mask out G F) as (R0 & E & HR & TR). rewrite E in H. injection H as <- <-. pose proof HR as (SR & WR & _).
    destruct (dualBuild_ok fuel' t se R0 mask out') as (R1 & E1 & HR1 & _); [|exact F'|].
    { repeat (split; [first [assumption|congruence]|]). assumption. }
    rewrite E1. rewrite (dual_rebuilt_fun se R0 mask R1 R0); auto. apply (dual_rebuilt_idem se marker); assumption.
Qed.
Print Assumptions C30_idempotent.

(** C30.  Both are increasing in the marker and in the mask. *)
Theorem C30_increasing : forall fuel fuel' t se k m k' m' o o' r r' A B,
  geo_ok t se k m o -> geo_ok t se k' m' o' -> enough m fuel -> enough m' fuel' -> sz m' = sz m -> le_img k k' -> le_img m m' ->
  (build fuel t se false k m o = Some (Some (r, A)) -> build fuel' t se false k' m' o' = Some (Some (r', B)) -> le_img A B) /\
  (dualBuild fuel t se false k m o = Some (Some (r, A)) -> dualBuild fuel' t se false k' m' o' = Some (Some (r', B)) -> le_img A B).
Proof.
  intros fuel fuel' t se k m k' m' o o' r r' A B G G' F F' S Hk Hm. pose proof G as (_ & W1 & W2 & S1 & _). pose proof G' as (_ & W1' & W2' & S1' & _). split; intros H H'.
  - destruct (build_ok fuel t se k m o G F) as (R & E & HR & _). rewrite E in H. injection H as <- <-.
    destruct (build_ok fuel' t se k' m' o' G' F') as (R' & E' & HR' & _). rewrite E' in H'. injection H' as <- <-.
    eapply rebuilt_increasing; [| | | |exact Hk|exact Hm|exact HR|exact HR']; auto; congruence.
  - destruct (dualBuild_ok fuel t se k m o G F) as (R & E & HR & _). rewrite E in H. injection H as <- <-.
    destruct (dualBuild_ok fuel' t se k' m' o' G' F') as (R' & E' & HR' & _). rewrite E' in H'. injection H' as <- <-.
    eapply dual_rebuilt_increasing; [| | | |exact Hk|exact Hm|exact HR|exact HR']; auto; congruence.
Qed.
Print Assumptions C30_increasing.

(** C30.  dualBuild of the negatives is the negative of build. *)
Theorem C30_duality : forall fuel fuel' t se k m k' m' o o' r r' A B,
  geo_ok t se k m o -> geo_ok t se k' m' o' -> enough m fuel -> enough m' fuel' -> negative t k k' -> negative t m m' ->
  build fuel t se false k m o = Some (Some (r, A)) -> dualBuild fuel' t se false k' m' o' = Some (Some (r', B)) -> negative t A B.
Proof.
  intros fuel fuel' t se k m k' m' o o' r r' A B G G' F F' Nk Nm H H'. pose proof G as (_ & W1 & W2 & _).
  destruct (build_ok fuel t se k m o G F) as (R & E & HR & _). rewrite E in H. injection H as <- <-.
  destruct (dualBuild_ok fuel' t se k' m' o' G' F') as (R' & E' & HR' & _). rewrite E' in H'. injection H' as <- <-.
  eapply rebuilt_negative; [exact W1|exact W2|exact Nk|exact Nm|exact HR|exact HR'].
Qed.
Print Assumptions C30_duality.

(** C30.  Images of different sizes are rejected, imOut is unchanged. *)
Theorem C30_reject : forall fuel t se alias marker mask out, sz marker <> sz mask \/ sz marker <> sz out ->
  build fuel t se alias marker mask out = Some (Some (-98, out)) /\ dualBuild fuel t se alias marker mask out = Some (Some (-98, out)).
Proof.
  intros fuel t se alias marker mask out H. assert (same_size marker mask && same_size marker out = false) as E.
  { apply Bool.not_true_iff_false. intros K. apply andb_true_iff in K as [K1 K2]. apply TransformProofs2.same_size_eq in K1, K2. destruct H; contradiction. }
  unfold build, binBuild, dualBuild. rewrite E. cbn [negb]. split; [|reflexivity]. destruct (isBinary marker && isBinary mask); reflexivity.
Qed.
Print Assumptions C30_reject.

(** Outside the unsigned types the flooding reads outside its levels (C26). *)
Theorem C30_signed_refuted : ~ (forall fuel se marker mask out, wf_img marker -> wf_img mask -> sz marker = sz mask -> sz out = sz mask ->
  typed_img INT8 marker -> typed_img INT8 mask -> enough mask fuel -> exists R, build fuel INT8 se false marker mask out = Some (Some (1, R))).
Proof.
  intros H. set (i := Img (Dims 2 1 1) [-1; 3]).
  assert (W : wf_img i) by (split; [repeat split; cbn; lia|reflexivity]). assert (T : typed_img INT8 i) by (repeat constructor; cbn; lia).
  destruct (H 4%nat (CrossSE 1) i i i W W eq_refl eq_refl T T) as (R & E); [unfold enough; cbn; lia|]. vm_compute in E. discriminate.
Qed.
Print Assumptions C30_signed_refuted.

(** Two basins and a channel. *)
Definition bumps : img := Img (Dims 5 3 1) [9;9;9;9;9; 9;2;9;6;9; 9;9;9;9;4].
Definition peaks : img := Img (Dims 5 3 1) [0;8;0;0;0; 0;0;0;7;0; 0;0;0;0;5].

Ltac in_points := let p := fresh in let H := fresh in intros p H; vm_compute in H; repeat (destruct H as [<-|H]; [vm_compute; repeat split; first [reflexivity|discriminate]|]); destruct H.
Ltac typed_px := apply Forall_forall; let v := fresh in let H := fresh in intros v H; vm_compute in H; repeat (destruct H as [<-|H]; [vm_compute; split; discriminate|]); destruct H.

Lemma bumps_ok : geo1_ok UINT8 (CrossSE 1) bumps bumps.
Proof.
  split; [left; reflexivity|]. split; [split; [repeat split; cbn; lia|reflexivity]|]. split; [reflexivity|]. split; [typed_px|]. split; [repeat split; cbn; lia|]. split; [in_points|discriminate].
Qed.
Lemma cross_good : good_se (CrossSE 1) (Dims 5 3 1).
Proof. split; [split; [reflexivity|tauto]|]. split; [cbn; lia|]. split; [cbn; lia|]. split; [cbn; lia|discriminate]. Qed.
Lemma bumps_good : good_img bumps.
Proof. apply good_ex; [split; [repeat split; cbn; lia|reflexivity]|cbn; lia|cbn; lia|cbn; lia]. Qed.

Example C30_case : geo_ok UINT8 (CrossSE 1) peaks bumps peaks /\ enough bumps 30 /\
  build 30 UINT8 (CrossSE 1) false peaks bumps peaks = Some (Some (1, Img (Dims 5 3 1) [8;8;8;8;8; 8;2;8;6;8; 8;8;8;8;4])) /\
  negative UINT8 bumps (pw1 (px_inv UINT8) bumps).
Proof.
  split; [|split; [unfold enough; cbn; lia|split; [vm_compute; reflexivity|]]].
  { split; [left; reflexivity|]. split; [split; [repeat split; cbn; lia|reflexivity]|]. split; [split; [repeat split; cbn; lia|reflexivity]|]. split; [reflexivity|]. split; [reflexivity|].
    split; [typed_px|]. split; [typed_px|]. split; [repeat split; cbn; lia|]. split; [in_points|discriminate]. }
  destruct (pw1_spec (px_inv UINT8) bumps) as (A & B & C); [apply bumps_good|]. split; [exact A|]. split; [exact B|]. intros x y z u Hu. specialize (C x y z u Hu).
  rewrite px_inv_eq in C; [|eapply typed_is; [apply bumps_ok|exact Hu]]. replace (tmin UINT8 + tmax UINT8 - u) with (tmax UINT8 + tmin UINT8 - u) by lia. exact C.
Qed.

(** ** C49.  geoDilate (geoErode) of size n gives the highest (lowest) level that flows along paths of at most n steps. *)
Theorem C49_geoDilate : forall t junk cs se marker mask out, geo_run t se cs marker mask out ->
  exists R, geoDilate t junk cs se false marker mask out = Some (1, R) /\ sz R = sz mask /\ wf_img R /\
    forall x y z v, pixel_is R x y z v -> greatest (flows_in Z.min se marker mask (Z.to_nat (se_size se)) x y z) v.
Proof. exact geoDilate_ok. Qed.
Print Assumptions C49_geoDilate.

Theorem C49_geoErode : forall t junk cs se marker mask out, geo_run t se cs marker mask out ->
  exists R, geoErode t junk cs se false marker mask out = Some (1, R) /\ sz R = sz mask /\ wf_img R /\
    forall x y z v, pixel_is R x y z v -> least (flows_in Z.max (transpose se) marker mask (Z.to_nat (se_size se)) x y z) v.
Proof. exact geoErode_ok. Qed.
Print Assumptions C49_geoErode.

(** ** C31.  geoBuild and geoDualBuild stop, for every structuring element with the origin; with an element of size 1
    (and symmetric, for the dual) the result is that of build (dualBuild). *)
Theorem C31_geoBuild_partial : forall t junk cs se marker mask out fuel, geo_run t se cs marker mask out -> geo_enough mask fuel ->
  exists R, geoBuild t junk cs fuel se false marker mask out = Some (Some (1, R)) /\ sz R = sz mask /\ wf_img R /\
    (se_size se = 1 -> forall fuel', enough mask fuel' -> build fuel' t se false marker mask out = Some (Some (1, R))).
Proof.
  intros t junk cs se marker mask out fuel G F. destruct (geoBuild_ok t junk cs se marker mask out G fuel F) as (R & E & S & W & H). exists R.
  split; [exact E|]. split; [exact S|]. split; [exact W|]. intros Hs fuel' F'. destruct (build_ok fuel' t se marker mask out (proj1 G) F') as (R' & E' & HR' & _).
  rewrite E'. rewrite (rebuilt_fun se marker mask R' R); auto.
Qed.
Print Assumptions C31_geoBuild_partial.

Theorem C31_geoDualBuild_partial : forall t junk cs se marker mask out fuel, geo_run t se cs marker mask out -> geo_enough mask fuel ->
  exists R, geoDualBuild t junk cs fuel se false marker mask out = Some (Some (1, R)) /\ sz R = sz mask /\ wf_img R /\
    (se_size se = 1 -> symmetric_se se -> forall fuel', enough mask fuel' -> dualBuild fuel' t se false marker mask out = Some (Some (1, R))) /\
    (se_size se = 1 -> dual_rebuilt (transpose se) marker mask R).
Proof.
  intros t junk cs se marker mask out fuel G F. destruct (geoDualBuild_ok t junk cs se marker mask out G fuel F) as (R & E & S & W & H). exists R.
  split; [exact E|]. split; [exact S|]. split; [exact W|]. split; [|exact H]. intros Hs Hsym fuel' F'. destruct (dualBuild_ok fuel' t se marker mask out (proj1 G) F') as (R' & E' & HR' & _).
  rewrite E'. rewrite (dual_rebuilt_fun se marker mask R' R); auto. apply dual_rebuilt_sym; auto. apply G.
Qed.
Print Assumptions C31_geoDualBuild_partial.

(** An element of size 2 jumps over a wall one pixel wide in geoBuild, not in build. *)
Theorem C31_size_refuted : ~ (forall t junk cs se marker mask out fuel fuel' R R', geo_run t se cs marker mask out -> enough mask fuel' ->
  geoBuild t junk cs fuel se false marker mask out = Some (Some (1, R)) -> build fuel' t se false marker mask out = Some (Some (1, R')) -> R = R').
Proof.
  intros H. set (msk := Img (Dims 3 2 1) [9;0;9;9;0;9]). set (mrk := Img (Dims 3 2 1) [9;0;0;0;0;0]).
  assert (W : wf_img msk) by (split; [repeat split; cbn; lia|reflexivity]).
  discriminate (H UINT8 (fun _ => 0) (fun _ => one_thread) (SquSE 2) mrk msk msk 10%nat 20%nat (Img (Dims 3 2 1) [9;0;9;9;0;9]) (Img (Dims 3 2 1) [9;0;0;9;0;0])).
  - split; [|split; [apply good_ex; [exact W|cbn; lia|cbn; lia|cbn; lia]|]].
    + split; [left; reflexivity|]. split; [split; [repeat split; cbn; lia|reflexivity]|]. split; [exact W|]. split; [reflexivity|]. split; [reflexivity|].
      split; [typed_px|]. split; [typed_px|]. split; [repeat split; cbn; lia|]. split; [in_points|discriminate].
    + split; [|split; [vm_compute; tauto|intros k j; apply one_thread_legal; cbn; lia]].
      split; [split; [reflexivity|tauto]|]. split; [cbn; lia|]. split; [cbn; lia|]. split; [cbn; lia|discriminate].
  - unfold enough; cbn; lia.
  - vm_compute. reflexivity.
  - vm_compute. reflexivity.
Qed.
Print Assumptions C31_size_refuted.

(** dualBuild goes the way of the element, geoDualBuild against it. *)
Theorem C31_asymmetric_refuted : ~ (forall t junk cs se marker mask out fuel fuel' R R', geo_run t se cs marker mask out -> enough mask fuel' -> se_size se = 1 ->
  geoDualBuild t junk cs fuel se false marker mask out = Some (Some (1, R)) -> dualBuild fuel' t se false marker mask out = Some (Some (1, R')) -> R = R').
Proof.
  intros H. set (msk := Img (Dims 3 1 1) [0;0;0]). set (mrk := Img (Dims 3 1 1) [9;0;9]). set (R2 := SE false SE_Generic 1 [(0, 0, 0); (1, 0, 0)]).
  assert (W : wf_img msk) by (split; [repeat split; cbn; lia|reflexivity]).
  discriminate (H UINT8 (fun _ => 0) (fun _ => one_thread) R2 mrk msk msk 10%nat 20%nat (Img (Dims 3 1 1) [0;0;9]) (Img (Dims 3 1 1) [9;0;0])).
  - split; [|split; [apply good_ex; [exact W|cbn; lia|cbn; lia|cbn; lia]|]].
    + split; [left; reflexivity|]. split; [split; [repeat split; cbn; lia|reflexivity]|]. split; [exact W|]. split; [reflexivity|]. split; [reflexivity|].
      split; [typed_px|]. split; [typed_px|]. split; [repeat split; cbn; lia|]. split; [in_points|discriminate].
    + split; [|split; [cbn; tauto|intros k j; apply one_thread_legal; cbn; lia]].
      split; [discriminate|]. split; [cbn; lia|]. split; [in_points|]. split; [in_points|discriminate].
  - unfold enough; cbn; lia.
  - reflexivity.
  - vm_compute. reflexivity.
  - vm_compute. reflexivity.
Qed.
Print Assumptions C31_asymmetric_refuted.

Example C31_case : geo_run UINT8 (CrossSE 1) (fun _ => one_thread) peaks bumps peaks /\ symmetric_se (CrossSE 1) /\
  geoBuild UINT8 (fun _ => 0) (fun _ => one_thread) 20 (CrossSE 1) false peaks bumps peaks = Some (Some (1, Img (Dims 5 3 1) [8;8;8;8;8; 8;2;8;6;8; 8;8;8;8;4])).
Proof.
  split; [|split; [|vm_compute; reflexivity]].
  - split; [apply C30_case|]. split; [apply bumps_good|]. split; [exact cross_good|]. split; [vm_compute; tauto|]. intros k j. apply one_thread_legal. cbn; lia.
  - intros p. vm_compute. tauto.
Qed.

(** ** C32 *)
(** fillHoles never lowers a pixel; below the type maximum, a pixel of the result is at most [l] exactly when it is
    joined to the border of the image by pixels at most [l]: pixels that drain to the border keep the height of the
    lowest pass, the others are filled to it. *)
Theorem C32_fillHoles : forall fuel t se im out, geo1_ok t se im out -> enough im fuel ->
  exists R, fillHoles fuel t se false im out = Some (Some (1, R)) /\ sz R = sz im /\ wf_img R /\ typed_img t R /\ le_img im R /\
    forall x y z v l, pixel_is R x y z v -> l < tmax t -> (v <= l <-> joined se (fun b => b <= l) (on_border (sz im)) im x y z).
Proof. exact fillHoles_ok. Qed.
Print Assumptions C32_fillHoles.

(** fillHoles raises exactly the pixels that cannot reach the border without climbing. *)
Theorem C32_fillHoles_raised : forall fuel t se im out r R x y z u v, geo1_ok t se im out -> enough im fuel ->
  fillHoles fuel t se false im out = Some (Some (r, R)) -> pixel_is im x y z u -> pixel_is R x y z v -> u < tmax t ->
  (u < v <-> ~ joined se (fun b => b <= u) (on_border (sz im)) im x y z).
Proof.
  intros fuel t se im out r R x y z u v G F H Hu Hv Hl. destruct (fillHoles_ok fuel t se im out G F) as (R0 & E & _ & _ & _ & _ & K). rewrite E in H. injection H as <- <-.
  rewrite <- (K x y z v u Hv Hl). lia.
Qed.
Print Assumptions C32_fillHoles_raised.

Lemma joined_negative t se ok seed im im' x y z : negative t im im' ->
  joined se ok seed im x y z -> joined se (fun b => ok (tmin t + tmax t - b)) seed im' x y z.
Proof.
  intros (_ & _ & N) H. induction H as [x y z b Hs Hb Lb|x y z x' y' z' b Hj IH Hse Hb Lb].
  - apply (joined_seed _ _ _ _ x y z (tmin t + tmax t - b)); auto. replace (tmin t + tmax t - (tmin t + tmax t - b)) with b by lia. exact Lb.
  - apply (joined_step _ _ _ _ x y z x' y' z' (tmin t + tmax t - b)); auto. replace (tmin t + tmax t - (tmin t + tmax t - b)) with b by lia. exact Lb.
Qed.

Lemma inv_negative t im : wf_img im -> typed_img t im -> negative t im (pw1 (px_inv t) im).
Proof.
  intros W T. destruct (pw1_spec (px_inv t) im W) as (A & B & C). split; [exact A|]. split; [exact B|]. intros x y z u Hu. specialize (C x y z u Hu).
  rewrite px_inv_eq in C; [|eapply typed_is; eassumption]. replace (tmin t + tmax t - u) with (tmax t + tmin t - u) by lia. exact C.
Qed.

(** levelPics never raises a pixel, and keeps the heights from which one can go to the border without descending. *)
Theorem C32_levelPics : forall fuel t se im out, geo1_ok t se im out -> enough im fuel ->
  exists R, levelPics fuel t se im out = Some (Some (1, R)) /\ sz R = sz im /\ wf_img R /\ le_img R im /\
    forall x y z v l, pixel_is R x y z v -> tmin t < l -> (l <= v <-> joined se (fun b => l <= b) (on_border (sz im)) im x y z).
Proof.
  intros fuel t se im out G F. pose proof G as (Ht & W & S & T & I & P & Pl). pose proof (inv_negative t im W T) as N.
  set (n := pw1 (px_inv t) im) in *. pose proof N as (Sn & Wn & Nn).
  assert (Tn : typed_img t n) by (apply pw1_typed; [intros v Hv; apply wrap_range|exact T]).
  destruct (fillHoles_ok fuel t se n out) as (R & E & SR & WR & TR & LR & K); [|unfold enough, n in *; cbn; rewrite map_length; exact F|].
  { split; [exact Ht|]. split; [exact Wn|]. rewrite Sn. auto. }
  exists (pw1 (px_inv t) R). pose proof (inv_negative t R WR TR) as N2. pose proof N2 as (S2 & W2 & K2).
  unfold levelPics. replace (same_size im out) with true by (symmetry; apply same_size_true; congruence). cbn [negb]. fold n. rewrite E. cbn [fuel_bind snd].
  split; [reflexivity|]. split; [congruence|]. split; [exact W2|]. split.
  - intros x y z a b Ha Hb. destruct (negative_at t R _ x y z a WR N2 Ha) as (r & Hr & ->). specialize (LR x y z _ r (Nn _ _ _ _ Hb) Hr). lia.
  - intros x y z v l Hv Hl. destruct (negative_at t R _ x y z v WR N2 Hv) as (r & Hr & ->).
    assert (r <= tmin t + tmax t - l <-> l <= tmin t + tmax t - r) as Q by lia. rewrite <- Q. rewrite (K x y z r (tmin t + tmax t - l) Hr) by lia. rewrite Sn. split; intros J.
    + apply (joined_negative t se _ _ n im) in J; [|apply negative_back; assumption]. eapply joined_impl; [| |exact J]; cbv beta; [intros b Hb; lia|auto].
    + apply (joined_negative t se _ _ im n) in J; [|exact N]. eapply joined_impl; [| |exact J]; cbv beta; [intros b Hb; lia|auto].
Qed.
Print Assumptions C32_levelPics.

(** buildOpen reconstructs the image from its erosion; buildClose from its dilation. *)
Theorem C32_buildOpen : forall fuel t junk cs se im out, geo1_ok t se im out -> call_ok cs false im (new_img junk im) -> good_se se (sz im) -> enough im fuel ->
  exists E R, erode junk cs (tmax t) se false im (new_img junk im) = Some (1, E) /\
    buildOpen fuel t junk cs se false im out = Some (Some (1, R)) /\ rebuilt se E im R /\ typed_img t R.
Proof. exact buildOpen_ok. Qed.
Print Assumptions C32_buildOpen.

Theorem C32_buildClose : forall fuel t junk cs se im out, geo1_ok t se im out -> call_ok cs false im (new_img junk im) -> good_se se (sz im) -> enough im fuel ->
  exists D R, dilate junk cs (tmin t) se false im (new_img junk im) = Some (1, D) /\
    buildClose fuel t junk cs se false im out = Some (Some (1, R)) /\ dual_rebuilt se D im R /\ typed_img t R.
Proof. exact buildClose_ok. Qed.
Print Assumptions C32_buildClose.

(** buildOpen is an opening: anti-extensive, increasing and, when the element has the origin, idempotent. *)
Theorem C32_buildOpen_below : forall fuel t junk cs se im out r R, open_call t junk cs se im out -> enough im fuel ->
  buildOpen fuel t junk cs se false im out = Some (Some (r, R)) -> le_img R im.
Proof.
  intros fuel t junk cs se im out r R C F H. destruct (buildOpen_val _ _ _ _ _ _ _ _ _ C F H) as (_ & _ & _ & _ & (_ & _ & K)).
  intros x y z a b Ha Hb. destruct (K _ _ _ _ Ha) as (A & _). eapply flows_le_mask; eassumption.
Qed.
Print Assumptions C32_buildOpen_below.

Theorem C32_buildOpen_increasing : forall fuel fuel' t junk junk' cs cs' se a b oa ob ra rb A B,
  open_call t junk cs se a oa -> enough a fuel -> open_call t junk' cs' se b ob -> enough b fuel' -> sz b = sz a -> le_img a b ->
  buildOpen fuel t junk cs se false a oa = Some (Some (ra, A)) -> buildOpen fuel' t junk' cs' se false b ob = Some (Some (rb, B)) -> le_img A B.
Proof. exact buildOpen_incr. Qed.
Print Assumptions C32_buildOpen_increasing.

Theorem C32_buildOpen_idempotent : forall fuel fuel' t junk junk' cs cs' se im out out' r r' R R',
  open_call t junk cs se im out -> enough im fuel -> open_call t junk' cs' se R out' -> enough R fuel' -> In (0, 0, 0) (se_points se) ->
  buildOpen fuel t junk cs se false im out = Some (Some (r, R)) -> buildOpen fuel' t junk' cs' se false R out' = Some (Some (r', R')) -> R' = R.
Proof. exact buildOpen_idem. Qed.
Print Assumptions C32_buildOpen_idempotent.

(** buildClose is a closing: extensive, increasing and, when the element has the origin and is symmetric, idempotent. *)
Theorem C32_buildClose_above : forall fuel t junk cs se im out r R, open_call t junk cs se im out -> enough im fuel ->
  buildClose fuel t junk cs se false im out = Some (Some (r, R)) -> le_img im R.
Proof.
  intros fuel t junk cs se im out r R C F H. destruct (buildClose_val _ _ _ _ _ _ _ _ _ C F H) as (_ & _ & _ & _ & (_ & _ & K)).
  intros x y z a b Ha Hb. destruct (K _ _ _ _ Hb) as (A & _). eapply flows_ge_mask; eassumption.
Qed.
Print Assumptions C32_buildClose_above.

Theorem C32_buildClose_increasing : forall fuel fuel' t junk junk' cs cs' se a b oa ob ra rb A B,
  open_call t junk cs se a oa -> enough a fuel -> open_call t junk' cs' se b ob -> enough b fuel' -> sz b = sz a -> le_img a b ->
  buildClose fuel t junk cs se false a oa = Some (Some (ra, A)) -> buildClose fuel' t junk' cs' se false b ob = Some (Some (rb, B)) -> le_img A B.
Proof. exact buildClose_incr. Qed.
Print Assumptions C32_buildClose_increasing.

Theorem C32_buildClose_idempotent : forall fuel fuel' t junk junk' cs cs' se im out out' r r' R R',
  open_call t junk cs se im out -> enough im fuel -> open_call t junk' cs' se R out' -> enough R fuel' -> In (0, 0, 0) (se_points se) -> symmetric_se se ->
  buildClose fuel t junk cs se false im out = Some (Some (r, R)) -> buildClose fuel' t junk' cs' se false R out' = Some (Some (r', R')) -> R' = R.
Proof. exact buildClose_idem. Qed.
Print Assumptions C32_buildClose_idempotent.

(** hBuild reconstructs the image from itself lowered by h (saturated); hDualBuild from itself raised. *)
Theorem C32_hBuild : forall fuel t junk se h im out, geo1_ok t se im out -> inty t h -> enough im fuel ->
  exists S R, pointwise1 (fun v => Z.max (tmin t) (v - h)) im S /\
    hBuild fuel t junk se h false im out = Some (Some (1, R)) /\ rebuilt se S im R /\ typed_img t R.
Proof. exact hBuild_ok. Qed.
Print Assumptions C32_hBuild.

Theorem C32_hDualBuild : forall fuel t junk se h im out, geo1_ok t se im out -> inty t h -> enough im fuel ->
  exists S R, pointwise1 (fun v => Z.min (tmax t) (v + h)) im S /\
    hDualBuild fuel t junk se h false im out = Some (Some (1, R)) /\ dual_rebuilt se S im R /\ typed_img t R.
Proof. exact hDualBuild_ok. Qed.
Print Assumptions C32_hDualBuild.

(** minima marks exactly the pixels, below the type maximum, from which one cannot reach a lower pixel without climbing;
    maxima the pixels, above the type minimum, from which one cannot reach a higher one without descending. *)
Theorem C32_minima : forall fuel t junk se im out, geo1_ok t se im out -> enough im fuel ->
  exists O, minima fuel t junk se false im out = Some (Some (1, O)) /\ marks t (fun x y z v => v < tmax t /\ ~ can_descend se im x y z v) im O.
Proof. exact minima_ok. Qed.
Print Assumptions C32_minima.

Theorem C32_maxima : forall fuel t junk se im out, geo1_ok t se im out -> enough im fuel ->
  exists O, maxima fuel t junk se false im out = Some (Some (1, O)) /\ marks t (fun x y z v => tmin t < v /\ ~ can_ascend se im x y z v) im O.
Proof. exact maxima_ok. Qed.
Print Assumptions C32_maxima.

(** hMinima (hMaxima) marks exactly the regional minima (maxima) of the reconstruction from the raised (lowered) image. *)
Theorem C32_hMinima : forall fuel t junk se h im out, geo1_ok t se im out -> inty t h -> enough im fuel ->
  exists S R O, pointwise1 (fun v => Z.min (tmax t) (v + h)) im S /\ dual_rebuilt se S im R /\
    hMinima fuel t junk se h im out = Some (Some (1, O)) /\ marks t (fun x y z v => v < tmax t /\ ~ can_descend se R x y z v) R O.
Proof. exact hMinima_ok. Qed.
Print Assumptions C32_hMinima.

Theorem C32_hMaxima : forall fuel t junk se h im out, geo1_ok t se im out -> inty t h -> enough im fuel ->
  exists S R O, pointwise1 (fun v => Z.max (tmin t) (v - h)) im S /\ rebuilt se S im R /\
    hMaxima fuel t junk se h im out = Some (Some (1, O)) /\ marks t (fun x y z v => tmin t < v /\ ~ can_ascend se R x y z v) R O.
Proof. exact hMaxima_ok. Qed.
Print Assumptions C32_hMaxima.

Example C32_case : geo1_ok UINT8 (CrossSE 1) bumps bumps /\ open_call UINT8 (fun _ => 0) one_thread (CrossSE 1) bumps bumps /\ enough bumps 30 /\
  fillHoles 30 UINT8 (CrossSE 1) false bumps bumps = Some (Some (1, Img (Dims 5 3 1) [9;9;9;9;9; 9;9;9;9;9; 9;9;9;9;4])) /\
  hMinima 30 UINT8 (fun _ => 0) (CrossSE 1) 3 bumps bumps = Some (Some (1, Img (Dims 5 3 1) [0;0;0;0;0; 0;255;0;0;0; 0;0;0;0;255])) /\
  buildOpen 30 UINT8 (fun _ => 0) one_thread (CrossSE 1) false peaks peaks = Some (Some (1, Img (Dims 5 3 1) [0;0;0;0;0; 0;0;0;0;0; 0;0;0;0;0])).
Proof.
  split; [exact bumps_ok|]. split.
  { split; [exact bumps_ok|]. split; [|exact cross_good]. split; [exact bumps_good|]. split; [split; [repeat split; cbn; lia|reflexivity]|]. split; [reflexivity|]. split; [discriminate|].
    intros k. apply one_thread_legal. cbn; lia. }
  split; [unfold enough; cbn; lia|]. split; [vm_compute; reflexivity|]. split; vm_compute; reflexivity.
Qed.

(** ** C48.  Called in place, hBuild, hDualBuild, minima and maxima forget the image: the result depends on the contents
    of fresh memory only. *)
Theorem C48_in_place_forgets_refuted : forall fuel t junk se h im im', sz im' = sz im ->
  hBuild fuel t junk se h true im im = hBuild fuel t junk se h true im' im' /\
  hDualBuild fuel t junk se h true im im = hDualBuild fuel t junk se h true im' im' /\
  minima fuel t junk se true im im = minima fuel t junk se true im' im' /\
  maxima fuel t junk se true im im = maxima fuel t junk se true im' im'.
Proof.
  intros fuel t junk se h im im' E. assert (K : forall i, same_size i i = true) by (intros i; apply same_size_true; reflexivity).
  unfold hBuild, hDualBuild, minima, maxima, h_source, new_img. rewrite !K, E. repeat split.
Qed.
Print Assumptions C48_in_place_forgets_refuted.

Theorem C48_hBuild_refuted : ~ (forall fuel t junk se h im R, geo1_ok t se im im -> inty t h -> enough im fuel ->
  hBuild fuel t junk se h false im im = Some (Some (1, R)) -> hBuild fuel t junk se h true im im = Some (Some (1, R))).
Proof.
  intros H. pose proof (H 30%nat UINT8 (fun _ => 0) (CrossSE 1) 3 bumps (Img (Dims 5 3 1) [6;6;6;6;6; 6;2;6;6;6; 6;6;6;6;4]) bumps_ok) as K.
  specialize (K ltac:(vm_compute; split; discriminate) ltac:(unfold enough; cbn; lia) ltac:(vm_compute; reflexivity)). vm_compute in K. discriminate.
Qed.
Print Assumptions C48_hBuild_refuted.

(** buildOpen, buildClose and fillHoles in place overwrite their own mask. *)
Theorem C48_buildOpen_refuted : ~ (forall fuel t junk cs se im R, open_call t junk cs se im im -> enough im fuel ->
  buildOpen fuel t junk cs se false im im = Some (Some (1, R)) -> buildOpen fuel t junk cs se true im im = Some (Some (1, R))).
Proof.
  intros H. destruct C32_case as (_ & A & B & _). pose proof (H 30%nat UINT8 (fun _ => 0) one_thread (CrossSE 1) bumps bumps A B ltac:(vm_compute; reflexivity)) as K. vm_compute in K. discriminate.
Qed.
Print Assumptions C48_buildOpen_refuted.

Theorem C48_fillHoles_refuted : ~ (forall fuel t se im R, geo1_ok t se im im -> enough im fuel ->
  fillHoles fuel t se false im im = Some (Some (1, R)) -> fillHoles fuel t se true im im = Some (Some (1, R))).
Proof.
  intros H. destruct C32_case as (A & _ & B & _). pose proof (H 30%nat UINT8 (CrossSE 1) bumps _ A B ltac:(vm_compute; reflexivity)) as K. vm_compute in K. discriminate.
Qed.
Print Assumptions C48_fillHoles_refuted.
