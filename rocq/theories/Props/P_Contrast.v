(** Theorems for C105 to C107: stretched histograms, contrast, Otsu's threshold. *)
From Verif Require Import Props.P_Morph Proofs.ContrastProofs2.
From Coq Require Import Lqa.
Local Open Scope Z_scope.

(** ** C105.  [stretchHist] is the linear function that takes inMin to outMin and inMax to outMax, rounded to the nearest
    and bounded by the output type. *)
Theorem C105_linear_partial : forall t1 t2 a b a' b' im out, wf_img im -> sz out = sz im -> inty t1 a -> inty t1 b -> inty t2 a' -> inty t2 b' ->
  a < b -> a' <= b' \/ t2 <> UINT32 ->
  exists R, stretchHist t1 t2 a b a' b' im out = Some (1, R) /\ typed_img t2 R /\ stretched t2 a b a' b' im R.
Proof. exact stretch_ok. Qed.
Print Assumptions C105_linear_partial.

(** Both ends are exact. *)
Theorem C105_ends : forall t2 a b a' b' im R x y z v w, a < b -> inty t2 a' -> inty t2 b' -> stretched t2 a b a' b' im R ->
  pixel_is im x y z v -> pixel_is R x y z w -> (v = a -> w = a') /\ (v = b -> w = b').
Proof.
  intros t2 a b a' b' im R x y z v w H I1 I2 (_ & _ & S) P Q. specialize (S _ _ _ _ _ P Q). split; intros ->; [apply (rounded_end t2 a b a' b')|apply (rounded_end2 t2 a b a' b')]; assumption.
Qed.
Print Assumptions C105_ends.

(** The order of the pixels is kept. *)
Theorem C105_increasing : forall t2 a b a' b' im R x y z x' y' z' u v u' v', a < b -> a' <= b' -> stretched t2 a b a' b' im R ->
  pixel_is im x y z u -> pixel_is im x' y' z' u' -> pixel_is R x y z v -> pixel_is R x' y' z' v' -> u <= u' -> v <= v'.
Proof. exact stretched_mono. Qed.
Print Assumptions C105_increasing.

Lemma value_pixel im k : wf_img im -> In k (pixs im) -> exists x y z, pixel_is im x y z k.
Proof.
  intros (W1 & W2) H. apply In_rd in H as (off & Rg & R). destruct (LoopFacts.voxel_surj (sz im) off W1) as (x & y & z & I & ->); [lia|]. exists x, y, z. split; assumption.
Qed.

(** From the range of the image to the range of the type: the output has both extreme values. *)
Theorem C105_full_range : forall t1 t2 im out lo hi, wf_img im -> typed_img t1 im -> spans im lo hi -> lo < hi -> sz out = sz im ->
  exists R, stretchHist_full t1 t2 im out = Some (1, R) /\ stretched t2 lo hi (tmin t2) (tmax t2) im R /\ spans R (tmin t2) (tmax t2).
Proof.
  intros t1 t2 im out lo hi W T S H Sz. unfold stretchHist_full, stretchHist_range. pose proof S as (S1 & S2 & S3).
  assert (E : rangeVal t1 false im = Some (lo, hi)).
  { destruct (rangeVal_ok t1 false im W T) as (l & g & E & J1 & J2 & J3); [intros K; cbn in K; rewrite K in S1; exact S1|]. rewrite E. cbn in J1, J2, J3. pose proof (J3 _ S1). pose proof (J3 _ S2). pose proof (S3 _ J1). pose proof (S3 _ J2). do 2 f_equal; lia. }
  rewrite E. cbn [option_bind fst snd]. unfold typed_img in T. rewrite Forall_forall in T. pose proof (tmin_tmax t2) as Ht.
  destruct (stretch_ok t1 t2 lo hi (tmin t2) (tmax t2) im out W Sz (T _ S1) (T _ S2)) as (R & ER & TR & StR); try (unfold inty; lia). exists R. split; [exact ER|]. split; [exact StR|].
  assert (Pt : forall v, In v (pixs im) -> exists x y z w, pixel_is im x y z v /\ pixel_is R x y z w /\ In w (pixs R)).
  { intros v Hv. destruct (value_pixel im v W Hv) as (x & y & z & P). destruct StR as (SR & WR & _). destruct (LoopFacts.pixel_exists R x y z WR) as (w & Q); [rewrite SR; apply P|]. exists x, y, z, w. split; [exact P|]. split; [exact Q|]. destruct Q as (_ & Q). apply (rd_In _ _ _ Q). }
  split; [|split].
  - destruct (Pt lo S1) as (x & y & z & w & P & Q & I). destruct (C105_ends t2 lo hi (tmin t2) (tmax t2) im R x y z lo w) as (E1 & _); try assumption; try (unfold inty; lia). rewrite (E1 eq_refl) in I. exact I.
  - destruct (Pt hi S2) as (x & y & z & w & P & Q & I). destruct (C105_ends t2 lo hi (tmin t2) (tmax t2) im R x y z hi w) as (_ & E1); try assumption; try (unfold inty; lia). rewrite (E1 eq_refl) in I. exact I.
  - unfold typed_img in TR. rewrite Forall_forall in TR. exact TR.
Qed.
Print Assumptions C105_full_range.

(** Missing cases: an image of one value makes 0/0, and a decreasing output range wraps around in UINT32. *)
Theorem C105_constant_refuted : forall t1 t2 c im out, wf_img im -> typed_img t1 im -> pixs im <> [] -> (forall v, In v (pixs im) -> v = c) -> sz out = sz im ->
  stretchHist_full t1 t2 im out = None.
Proof.
  intros t1 t2 c im out W T N C Sz. unfold stretchHist_full, stretchHist_range. destruct (rangeVal_ok t1 false im W T N) as (l & g & E & J1 & J2 & _). rewrite E. cbn in J1, J2. rewrite (C _ J1), (C _ J2). cbn [option_bind fst snd].
  unfold stretchHist. rewrite Sz, !Z.eqb_refl. cbn [andb negb]. destruct (pixs im) as [|v r] eqn:Ep; [congruence|]. rewrite (C v) by (left; reflexivity). cbn [map all_some]. unfold px_stretch at 1.
  replace (promoted_sub t1 c c) with 0 by (unfold promoted_sub; destruct t1; rewrite ?Z.sub_diag; reflexivity). rewrite !Z.eqb_refl. reflexivity.
Qed.
Print Assumptions C105_constant_refuted.

Theorem C105_decreasing_refuted : exists im out a b a' b' R, wf_img im /\ sz out = sz im /\ inty UINT32 a /\ inty UINT32 b /\ inty UINT32 a' /\ inty UINT32 b' /\ a < b /\
  stretchHist UINT32 UINT32 a b a' b' im out = Some (1, R) /\ pixel_is im 1 0 0 b /\ ~ pixel_is R 1 0 0 b'.
Proof.
  exists (Img (Dims 2 1 1) [0; 10]), (Img (Dims 2 1 1) [0; 0]), 0, 10, 10, 0. eexists. split; [split; [repeat split; cbn; lia|reflexivity]|]. split; [reflexivity|]. do 4 (split; [unfold inty; cbn; lia|]). split; [lia|]. split; [vm_compute; reflexivity|]. split; [split; [unfold inside; cbn; lia|reflexivity]|]. intros (_ & C). vm_compute in C. discriminate.
Qed.
Print Assumptions C105_decreasing_refuted.

Definition six : img := Img (Dims 3 2 1) [10; 20; 12; 30; 20; 25].
Lemma six_wf : wf_img six.
Proof. split; [repeat split; cbn; lia|reflexivity]. Qed.
Lemma six_typed : typed_img UINT8 six.
Proof. repeat constructor; cbn; lia. Qed.
Lemma six_spans : spans six 10 30.
Proof. split; [left; reflexivity|]. split; [do 3 right; left; reflexivity|]. intros v Hv. cbn in Hv. lia. Qed.
Example C105_case : exists R, stretchHist_full UINT8 UINT8 six six = Some (1, R) /\ pixs R = [0; 128; 26; 255; 128; 191] /\ stretched UINT8 10 30 0 255 six R.
Proof.
  destruct (C105_full_range UINT8 UINT8 six six 10 30 six_wf six_typed six_spans ltac:(lia) eq_refl) as (R & E & S & _). exists R. split; [exact E|]. split; [|exact S]. vm_compute in E. injection E as <-. reflexivity.
Qed.

(** ** C106.  [histogramRange]: the greatest value L below the maximum with at most the given percentage of the pixels at or
    below it, and the same from the top.  (Unsigned images other than UINT32: the histogram is an array.) *)
Theorem C106_range_partial : forall t im lo hi p, is_signed t = false -> t <> UINT32 -> wf_img im -> typed_img t im -> spans im lo hi ->
  let sat := (inject_Z (Z.of_nat (length (pixs im))) * p / inject_Z 100)%Q in
  exists L R, histogramRange t im p true = Some (L, R) /\ lo <= L <= hi /\ lo <= R <= hi /\ (lo < hi -> L < hi /\ lo < R) /\
    (L = lo \/ (inject_Z (n_le im L) <= sat)%Q) /\ (forall v, L < v < hi -> (sat < inject_Z (n_le im v))%Q) /\
    (R = hi \/ (inject_Z (n_ge im R) <= sat)%Q) /\ (forall v, lo < v < R -> (sat < inject_Z (n_ge im v))%Q).
Proof. exact range_cumulative. Qed.
Print Assumptions C106_range_partial.

(** Without accumulation, the frequencies are compared with the percentage of the greatest one. *)
Theorem C106_range_frequency_partial : forall t im lo hi p, is_signed t = false -> t <> UINT32 -> wf_img im -> typed_img t im -> spans im lo hi ->
  exists L R mx, histogramRange t im p false = Some (L, R) /\ lo <= L <= hi /\ lo <= R <= hi /\ (exists v, n_eq im v = mx) /\ (forall v, n_eq im v <= mx) /\
    let sat := (inject_Z mx * p / inject_Z 100)%Q in
    (L = lo \/ (forall v, lo <= v <= L -> (inject_Z (n_eq im v) <= sat)%Q)) /\ (L < hi - 1 -> (sat < inject_Z (n_eq im (L + 1)))%Q \/ L = lo /\ (sat < inject_Z (n_eq im L))%Q) /\
    (R = hi \/ (forall v, R <= v <= hi -> (inject_Z (n_eq im v) <= sat)%Q)) /\ (lo + 1 < R -> (sat < inject_Z (n_eq im (R - 1)))%Q \/ R = hi /\ (sat < inject_Z (n_eq im R))%Q).
Proof. exact range_frequency. Qed.
Print Assumptions C106_range_frequency_partial.

(** [enhanceContrast] below one half: an increasing linear function, black up to L, white from R. *)
Theorem C106_enhance_partial : forall t im out lo hi p, is_signed t = false -> t <> UINT32 -> wf_img im -> typed_img t im -> spans im lo hi -> lo < hi -> (p < inject_Z 50)%Q -> sz out = sz im ->
  exists L R res, histogramRange t im p true = Some (L, R) /\ lo <= L < R /\ R <= hi /\ enhanceContrast t p im out = Some (1, res) /\ typed_img t res /\ stretched t L R (tmin t) (tmax t) im res /\
    (forall x y z v w, pixel_is im x y z v -> pixel_is res x y z w -> (v <= L -> w = tmin t) /\ (R <= v -> w = tmax t)) /\
    (forall x y z v w x' y' z' v' w', pixel_is im x y z v -> pixel_is res x y z w -> pixel_is im x' y' z' v' -> pixel_is res x' y' z' w' -> v <= v' -> w <= w').
Proof. exact enhance_ok. Qed.
Print Assumptions C106_enhance_partial.

(** Above one half the contrast may be inverted; images of one value make 0/0; the size error is not reported. *)
Theorem C106_inverted_refuted : exists im res, wf_img im /\ typed_img UINT8 im /\ enhanceContrast UINT8 (80 # 1) im im = Some (1, res) /\ pixs im = [10; 20; 30; 40] /\ pixs res = [255; 173; 82; 0].
Proof.
  exists (Img (Dims 4 1 1) [10; 20; 30; 40]). eexists. split; [split; [repeat split; cbn; lia|reflexivity]|]. split; [repeat constructor; cbn; lia|]. split; [vm_compute; reflexivity|]. split; reflexivity.
Qed.
Print Assumptions C106_inverted_refuted.

Theorem C106_constant_refuted : forall t im out c p, is_signed t = false -> t <> UINT32 -> wf_img im -> typed_img t im -> pixs im <> [] -> (forall v, In v (pixs im) -> v = c) -> sz out = sz im ->
  enhanceContrast t p im out = None.
Proof.
  intros t im out c p U N W T NE C Sz. assert (S : spans im c c). { destruct (pixs im) as [|v r] eqn:Ep; [congruence|]. assert (v = c) as -> by (apply C; left; reflexivity). unfold spans. rewrite Ep. split; [left; reflexivity|]. split; [left; reflexivity|]. intros u Hu. rewrite (C u Hu). lia. }
  destruct (range_cumulative t im c c p U N W T S) as (L & R & E & HL & HR & _). unfold enhanceContrast. rewrite E. cbn [option_bind fst snd]. assert (L = c) as -> by lia. assert (R = c) as -> by lia.
  unfold stretchHist. rewrite Sz, !Z.eqb_refl. cbn [andb negb]. destruct (pixs im) as [|v r] eqn:Ep; [congruence|]. rewrite (C v) by (left; reflexivity). cbn [map all_some]. unfold px_stretch at 1.
  replace (promoted_sub t c c) with 0 by (unfold promoted_sub; destruct t; rewrite ?Z.sub_diag; reflexivity). rewrite !Z.eqb_refl. reflexivity.
Qed.
Print Assumptions C106_constant_refuted.

Theorem C106_sizes_refuted : forall t im out lo hi p, is_signed t = false -> t <> UINT32 -> wf_img im -> typed_img t im -> spans im lo hi -> dw (sz im) <> dw (sz out) ->
  enhanceContrast t p im out = Some (1, out).
Proof.
  intros t im out lo hi p U N W T S D. destruct (range_cumulative t im lo hi p U N W T S) as (L & R & E & _). unfold enhanceContrast. rewrite E. cbn [option_bind fst snd]. unfold stretchHist. replace (dw (sz im) =? dw (sz out)) with false by lia. reflexivity.
Qed.
Print Assumptions C106_sizes_refuted.

(** Signed images: the histogram is read at the pixel values, not moved by the least value of the type.  Negative values
    are outside it. *)
Theorem C106_signed_refuted : forall t im lo hi p c, is_signed t = true -> wf_img im -> typed_img t im -> spans im lo hi -> lo < hi < 0 -> histogramRange t im p c = None.
Proof.
  intros t im lo hi p c U W T (S1 & S2 & S3) H. unfold histogramRange. assert (N : t <> UINT32) by (intros ->; discriminate U). destruct (histogram_array_ok t im N W T) as (h & Eh & Lh & _). rewrite Eh. cbn [option_bind].
  assert (E : rangeVal t false im = Some (lo, hi)).
  { destruct (rangeVal_ok t false im W T) as (l & g & E & J1 & J2 & J3); [intros K; cbn in K; rewrite K in S1; exact S1|]. rewrite E. cbn in J1, J2, J3. pose proof (J3 _ S1). pose proof (J3 _ S2). pose proof (S3 _ J1). pose proof (S3 _ J2). do 2 f_equal; lia. }
  rewrite E. cbn [option_bind fst snd]. unfold typed_img in T. rewrite Forall_forall in T. pose proof (T _ S1) as I1. unfold inty in I1. assert (B : tmin t > - 2 ^ 62 /\ tcard t < 2 ^ 62) by (destruct t; split; reflexivity).
  assert (Ea : lo mod 2 ^ 64 = lo + 2 ^ 64) by (symmetry; apply Z.mod_unique with (-1); lia). assert (Eb : hi mod 2 ^ 64 = hi + 2 ^ 64) by (symmetry; apply Z.mod_unique with (-1); lia).
  replace (hi mod 2 ^ 64 - lo mod 2 ^ 64) with (Z.of_nat (S (Z.to_nat (hi - lo - 1)))) by lia. rewrite (shift_zseq (fun k => k)). cbn [range_loop]. rewrite rd_out by lia. reflexivity.
Qed.
Print Assumptions C106_signed_refuted.

Example C106_case : exists R, histogramRange UINT8 six (60 # 1) true = Some (19, 21) /\ histogramRange UINT8 six (30 # 1) true = Some (11, 26) /\
  enhanceContrast UINT8 (30 # 1) six six = Some (1, R) /\ is_signed UINT8 = false /\ UINT8 <> UINT32 /\ spans six 10 30 /\ (30 # 1 < inject_Z 50)%Q.
Proof. eexists. split; [vm_compute; reflexivity|]. split; [vm_compute; reflexivity|]. split; [vm_compute; reflexivity|]. split; [reflexivity|]. split; [discriminate|]. split; [exact six_spans|reflexivity]. Qed.
Example C106_signed_case : let im := Img (Dims 2 1 1) [-10; -5] in is_signed INT8 = true /\ wf_img im /\ typed_img INT8 im /\ spans im (-10) (-5).
Proof. split; [reflexivity|]. split; [split; [repeat split; cbn; lia|reflexivity]|]. split; [repeat constructor; cbn; lia|]. split; [left; reflexivity|]. split; [right; left; reflexivity|]. intros v Hv. cbn in Hv. lia. Qed.

(** ** C107.  [otsuThresholdValues] for one threshold: the least of the thresholds which separate the values at most k from
    the values above k with the greatest variance between the two classes; and the image of the pixels at least k. *)
Theorem C107_otsu_partial : forall t t2 conv im mask lo hi fuel, wf_img im -> typed_img t im -> spans im lo hi -> 0 <= lo -> Z.of_nat (length (pixs im)) < 2 ^ 32 ->
  (forall m, mask = Some m -> length (pixs m) = length (pixs im)) -> counted im mask <> [] -> hi + 2 < Z.of_nat fuel ->
  exists k v R, otsuValues_image fuel t conv 1 im mask = Some (Some [k; conv v]) /\ (v == separation (counted im mask) k)%Q /\ best_threshold (counted im mask) k /\ inty t k /\
    otsuThreshold fuel t t2 conv 1 im mask = Some (Some (k, R)) /\ sz R = sz im /\ wf_img R /\
    forall x y z u w, pixel_is im x y z u -> pixel_is R x y z w -> w = if k <=? u then tmax t2 else tmin t2.
Proof. exact otsu_image. Qed.
Print Assumptions C107_otsu_partial.

(** The threshold is a value of the image, and not the greatest one. *)
Theorem C107_value : forall l k, best_threshold l k -> (forall v, In v l -> 0 <= v) -> (exists u v, In u l /\ In v l /\ u < v) -> In k l /\ exists v, In v l /\ k < v.
Proof. exact best_value. Qed.
Print Assumptions C107_value.

(** Hence the pixels equal to k, which belong to the lower class, come out white.  An image with two values becomes
    entirely white. *)
Theorem C107_two_values_refuted : forall t t2 conv im a b fuel, wf_img im -> typed_img t im -> 0 <= a < b -> In a (pixs im) -> In b (pixs im) -> (forall v, In v (pixs im) -> v = a \/ v = b) ->
  Z.of_nat (length (pixs im)) < 2 ^ 32 -> b + 2 < Z.of_nat fuel ->
  exists R, otsuThreshold fuel t t2 conv 1 im None = Some (Some (a, R)) /\ sz R = sz im /\ forall x y z w, pixel_is R x y z w -> w = tmax t2.
Proof.
  intros t t2 conv im a b fuel W T H Ia Ib C HC Hf. destruct (otsu_image t t2 conv im None a b fuel) as (k & v & R & _ & _ & B & _ & E & Sz & WR & P); try assumption; try lia.
  - split; [exact Ia|]. split; [exact Ib|]. intros u Hu. destruct (C u Hu); lia.
  - intros m X. discriminate.
  - cbn. intros X. rewrite X in Ia. exact Ia.
  - cbn in B. destruct (best_value (pixs im) k B) as (Ik & (u & Iu & Lt)).
    + intros u Hu. destruct (C u Hu); lia.
    + exists a, b. repeat split; try assumption; lia.
    + assert (k = a) as -> by (destruct (C k Ik), (C u Iu); lia). exists R. split; [exact E|]. split; [exact Sz|]. intros x y z w Q. destruct (LoopFacts.pixel_exists im x y z W) as (u' & P'); [rewrite <- Sz; apply Q|]. rewrite (P _ _ _ _ _ P' Q). destruct P' as (_ & P'). apply rd_In in P'. replace (a <=? u') with true by (destruct (C u' P'); lia). reflexivity.
Qed.
Print Assumptions C107_two_values_refuted.

(** [threshold] without a value answers RES_ERR whenever the threshold is 0. *)
Theorem C107_zero_refuted : forall t t2 conv im b fuel, tmin t = 0 -> wf_img im -> typed_img t im -> 0 < b -> In 0 (pixs im) -> In b (pixs im) -> (forall v, In v (pixs im) -> v = 0 \/ v = b) ->
  Z.of_nat (length (pixs im)) < 2 ^ 32 -> b + 2 < Z.of_nat fuel -> exists R, threshold_otsu fuel t t2 conv im = Some (Some (-100, R)).
Proof.
  intros t t2 conv im b fuel Tm W T H Ia Ib C HC Hf. destruct (C107_two_values_refuted t t2 conv im 0 b fuel W T ltac:(lia) Ia Ib C HC Hf) as (R & E & _). exists R. unfold threshold_otsu. rewrite E. cbn [option_bind]. rewrite Tm. reflexivity.
Qed.
Print Assumptions C107_zero_refuted.

(** The classes are cut at the variance too, taken for one more threshold: two values, one class. *)
Theorem C107_classes_refuted : exists im k v R, wf_img im /\ typed_img UINT8 im /\ otsuThreshold_classes 300 UINT8 UINT8 Qfloor 1 im im = Some (Some ([k; v], (1, R))) /\
  pixs im = [10; 20] /\ k = 10 /\ v = 50 /\ pixs R = [1; 1].
Proof.
  exists (Img (Dims 2 1 1) [10; 20]). do 3 eexists. split; [split; [repeat split; cbn; lia|reflexivity]|]. split; [repeat constructor; cbn; lia|]. split; [vm_compute; reflexivity|]. repeat split; reflexivity.
Qed.
Print Assumptions C107_classes_refuted.

(** No threshold: the loop has no end.  Negative values: the thresholds start at 0 and wrap around. *)
Theorem C107_endless_refuted : forall fuel t conv h, otsuThresholdValues fuel t conv 0 h = None.
Proof. exact values_zero. Qed.
Print Assumptions C107_endless_refuted.

Theorem C107_signed_refuted : exists im k v, wf_img im /\ typed_img INT8 im /\ otsuValues_image 300 INT8 Qfloor 1 im None = Some (Some [k; v]) /\ (separation (pixs im) k < separation (pixs im) (-5))%Q /\
  (separation (pixs im) (-5) < inject_Z v)%Q.
Proof.
  exists (Img (Dims 4 1 1) [-10; -5; 20; 10]). do 2 eexists. split; [split; [repeat split; cbn; lia|reflexivity]|]. split; [repeat constructor; cbn; lia|]. split; [vm_compute; reflexivity|]. split; vm_compute; reflexivity.
Qed.
Print Assumptions C107_signed_refuted.

Example C107_case : exists k v R, otsuValues_image 300 UINT8 Qfloor 1 six None = Some (Some [k; v]) /\ best_threshold (pixs six) k /\ k = 12 /\
  otsuThreshold 300 UINT8 UINT8 Qfloor 1 six None = Some (Some (k, R)) /\ pixs R = [0; 255; 255; 255; 255; 255].
Proof.
  destruct (C107_otsu_partial UINT8 UINT8 Qfloor six None 10 30 300 six_wf six_typed six_spans ltac:(lia) ltac:(cbn; lia) ltac:(discriminate) ltac:(discriminate) ltac:(lia)) as (k & v & R & E & _ & B & _ & E2 & _). exists k, (Qfloor v), R. split; [exact E|]. split; [exact B|].
  vm_compute in E2. injection E2 as <- <-. split; [reflexivity|]. split; [vm_compute; reflexivity|reflexivity].
Qed.
