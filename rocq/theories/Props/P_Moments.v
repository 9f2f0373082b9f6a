(** C108 to C110: means and deviations, barycentres and moments, covariances (DMeasures.hpp). *)
From Coq Require Import Lqa.
From Verif Require Import Proofs.MomentsProofs2.
From Coq Require Import QArith.
Local Open Scope Z_scope.

(** ** C108: mean value and deviation *)
Theorem C108_mean onlyNonZero im :
  wf_img im -> considered onlyNonZero im <> [] ->
  Zsum (map (fun v => v * v) (considered onlyNonZero im)) <= 2 ^ 53 -> Zsum (map Z.abs (considered onlyNonZero im)) <= 2 ^ 53 ->
  Z.of_nat (length (considered onlyNonZero im)) <= 2 ^ 53 ->
  let l := considered onlyNonZero im in
  exists mean variance, meanVal onlyNonZero im = Some (mean, variance) /\
    (mean * inject_Z (Z.of_nat (length l)) == inject_Z (Zsum l))%Q /\
    (variance * inject_Z (Z.of_nat (length l)) == qsum (map (fun v => (inject_Z v - mean) * (inject_Z v - mean)) l))%Q /\
    (0 <= variance)%Q /\ ((variance == 0)%Q <-> forall u v, In u l -> In v l -> u = v).
Proof. apply mean_ok. Qed.
Print Assumptions C108_mean.

(** Nothing to measure. *)
Theorem C108_empty onlyNonZero im : wf_img im -> considered onlyNonZero im = [] -> meanVal onlyNonZero im = Some (0%Q, 0%Q).
Proof.
  intros W H. unfold meanVal. rewrite (mean_raw onlyNonZero im W); rewrite H; cbn; [reflexivity|lia|lia|lia].
Qed.
Print Assumptions C108_empty.

Definition ramp6 : img := Img (Dims 3 2 1) [0; 1; 2; 3; 4; 5].
Example C108_case : meanVal false ramp6 = Some (15 # 6, (55 # 6) - (15 # 6) * (15 # 6))%Q /\ option_map fst (meanVal true ramp6) = Some (15 # 5)%Q.
Proof. split; reflexivity. Qed.

(** ** C109: barycentre and moments *)
Theorem C109_barycenter_partial im :
  wf_img im -> 0 < dw (sz im) -> exact_order1 im -> weighted im one3 <> 0 ->
  exists bx by_ bz, measBarycenter im = Some (Some bx :: Some by_ :: (if dd (sz im) >? 1 then [Some bz] else [])) /\
    (bx * inject_Z (weighted im one3) == inject_Z (weighted im px_x))%Q /\
    (by_ * inject_Z (weighted im one3) == inject_Z (weighted im px_y))%Q /\
    (bz * inject_Z (weighted im one3) == inject_Z (weighted im px_z))%Q.
Proof.
  intros W W0 B M. assert (M' : ~ (inject_Z (weighted im one3) == 0)%Q) by (intros E; apply M; exact (proj1 (inject_Z_injective _ 0) E)).
  exists (inject_Z (weighted im px_x) / inject_Z (weighted im one3))%Q, (inject_Z (weighted im px_y) / inject_Z (weighted im one3))%Q, (inject_Z (weighted im px_z) / inject_Z (weighted im one3))%Q.
  rewrite (bary_ok im W W0 B). unfold ratio. replace (weighted im one3 =? 0) with false by lia. split; [reflexivity|]. repeat split; field; exact M'.
Qed.
Print Assumptions C109_barycenter_partial.

(** In a non-negative image, the barycentre lies between the extreme coordinates of the nonzero pixels. *)
Theorem C109_barycenter_inside im x0 x1 y0 y1 z0 z1 l :
  wf_img im -> 0 < dw (sz im) -> exact_order1 im -> 0 < weighted im one3 ->
  (forall x y z v, pixel_is im x y z v -> 0 <= v /\ (v <> 0 -> x0 <= x <= x1 /\ y0 <= y <= y1 /\ z0 <= z <= z1)) ->
  measBarycenter im = Some l ->
  (forall q, rd l 0 = Some (Some q) -> inject_Z x0 <= q /\ q <= inject_Z x1)%Q /\
  (forall q, rd l 1 = Some (Some q) -> inject_Z y0 <= q /\ q <= inject_Z y1)%Q /\
  (forall q, rd l 2 = Some (Some q) -> inject_Z z0 <= q /\ q <= inject_Z z1)%Q /\
  ~ In None l.
Proof.
  intros W W0 B M H. rewrite (bary_ok im W W0 B). intros E. injection E as <-.
  assert (Bx : x0 * weighted im one3 <= weighted im px_x <= x1 * weighted im one3) by (apply weighted_bounds; [exact W|]; intros x y z v Hv; destruct (H x y z v Hv) as (H1 & H2); split; [exact H1|intros N; apply (H2 N)]).
  assert (By : y0 * weighted im one3 <= weighted im px_y <= y1 * weighted im one3) by (apply weighted_bounds; [exact W|]; intros x y z v Hv; destruct (H x y z v Hv) as (H1 & H2); split; [exact H1|intros N; apply (H2 N)]).
  assert (Bz : z0 * weighted im one3 <= weighted im px_z <= z1 * weighted im one3) by (apply weighted_bounds; [exact W|]; intros x y z v Hv; destruct (H x y z v Hv) as (H1 & H2); split; [exact H1|intros N; apply (H2 N)]).
  split; [|split; [|split]].
  - intros q E. injection E as E. apply (ratio_bounds _ _ _ _ _ M Bx E).
  - intros q E. injection E as E. apply (ratio_bounds _ _ _ _ _ M By E).
  - intros q E. destruct (dd (sz im) >? 1); [|discriminate]. injection E as E. apply (ratio_bounds _ _ _ _ _ M Bz E).
  - unfold ratio. replace (weighted im one3 =? 0) with false by lia. destruct (dd (sz im) >? 1); cbn; intros HN; repeat destruct HN as [HN|HN]; (discriminate || contradiction).
Qed.
Print Assumptions C109_barycenter_inside.

(** A zero total mass gives NaN coordinates. *)
Theorem C109_massless_refuted :
  ~ (forall im, wf_img im -> 0 < dw (sz im) -> exact_order1 im -> exists l, measBarycenter im = Some l /\ ~ In None l).
Proof.
  intros H. destruct (H (Img (Dims 2 1 1) [0; 0])) as (l & E & N); [split; [repeat split; cbn; lia|reflexivity]|cbn; lia|repeat split; vm_compute; discriminate|]. vm_compute in E. injection E as <-. apply N. left. reflexivity.
Qed.
Print Assumptions C109_massless_refuted.

(** The moments are the sums of the documentation, whether or not the null pixels are skipped. *)
Theorem C109_moments onlyNonZero im :
  wf_img im -> 0 < dw (sz im) -> exact_order2 im -> measMoments onlyNonZero false im = Some (map inject_Z (moment_values im)).
Proof. intros W W0 B. unfold measMoments. rewrite (moments_func_ok onlyNonZero im W W0 B). reflexivity. Qed.
Print Assumptions C109_moments.

(** The centred moments are the second moments about the barycentre. *)
Theorem C109_centered_partial onlyNonZero im :
  wf_img im -> 0 < dw (sz im) -> exact_order2 im -> 0 < weighted im one3 ->
  exists l, measMoments onlyNonZero true im = Some l /\ Forall2 Qeq l (centred_values im).
Proof. apply centred_ok. Qed.
Print Assumptions C109_centered_partial.

(** For non-negative images they form an inertia matrix: no direction has a negative spread. *)
Theorem C109_inertia im (a b c : Q) :
  wf_img im -> (forall x y z v, pixel_is im x y z v -> 0 <= v) ->
  (0 <= a * a * second im px_x px_x + b * b * second im px_y px_y + c * c * second im px_z px_z +
        2 * a * b * second im px_x px_y + 2 * a * c * second im px_x px_z + 2 * b * c * second im px_y px_z)%Q.
Proof. apply quad_nonneg. Qed.
Print Assumptions C109_inertia.

(** An image with a negative total mass has null centred moments, although its spread is not null. *)
Theorem C109_negative_refuted :
  ~ (forall im, wf_img im -> 0 < dw (sz im) -> exact_order2 im -> weighted im one3 <> 0 -> exists l, measMoments true true im = Some l /\ Forall2 Qeq l (centred_values im)).
Proof.
  intros H. destruct (H (Img (Dims 2 1 1) [-1; -1])) as (l & E & N); [split; [repeat split; cbn; lia|reflexivity]|cbn; lia|repeat split; vm_compute; discriminate|vm_compute; discriminate|]. vm_compute in E. injection E as <-. inversion N as [|? ? ? ? E0]. vm_compute in E0. discriminate.
Qed.
Print Assumptions C109_negative_refuted.

Definition plate : img := Img (Dims 3 2 1) [1; 0; 2; 0; 1; 0].
Example C109_case : wf_img plate /\ exact_order2 plate /\ 0 < weighted plate one3 /\ measBarycenter plate = Some [Some (5 # 4); Some (1 # 4)]%Q /\
  measMoments true false plate = Some (map inject_Z [4; 5; 1; 1; 9; 1]) /\ Forall2 Qeq (centred_values plate) [4; 0; 0; -1 # 4; 11 # 4; 3 # 4]%Q.
Proof.
  split; [split; [repeat split; cbn; lia|reflexivity]|]. split; [repeat split; vm_compute; discriminate|]. split; [reflexivity|]. split; [reflexivity|]. split; [reflexivity|]. repeat constructor.
Qed.
Definition block2 : img := Img (Dims 2 2 2) [1; 0; 0; 0; 0; 0; 0; 3].
Example C109_case_volume : wf_img block2 /\ exact_order2 block2 /\ measBarycenter block2 = Some [Some (3 # 4); Some (3 # 4); Some (3 # 4)]%Q /\
  measMoments false false block2 = Some (map inject_Z [4; 3; 3; 3; 3; 3; 3; 3; 3; 3]).
Proof. split; [split; [repeat split; cbn; lia|reflexivity]|]. split; [repeat split; vm_compute; discriminate|]. split; reflexivity. Qed.

(** ** C110: covariance *)
Theorem C110_covariance_partial t im1 im2 dx dy dz maxSteps normalize n :
  wf_img im1 -> wf_img im2 -> sz im2 = sz im1 ->
  0 < dw (sz im1) <= 2 ^ 32 -> 0 < dh (sz im1) <= 2 ^ 32 -> 0 < dd (sz im1) <= 2 ^ 32 ->
  0 <= dx <= 1 -> 0 <= dy <= 1 -> 0 <= dz <= 1 -> 0 < dx + dy + dz -> 0 <= maxSteps -> 0 < n ->
  (dx = 1 -> n < dw (sz im1)) -> (dy = 1 -> n < dh (sz im1)) -> (dz = 1 -> n < dd (sz im1)) ->
  (maxSteps = n \/ ((maxSteps = 0 \/ n < maxSteps) /\ ((dx = 1 /\ n + 1 = dw (sz im1)) \/ (dy = 1 /\ n + 1 = dh (sz im1)) \/ (dz = 1 /\ n + 1 = dd (sz im1))))) ->
  (forall k, 0 <= k <= n -> cov_exact t im1 im2 (dx * k) (dy * k) (dz * k)) ->
  let c k := covar im1 im2 (dx * k) (dy * k) (dz * k) in
  (normalize = false -> measCovariance t im1 im2 dx dy dz maxSteps normalize = Some (map (fun k => Some (c k)) (zseq (n + 1)))) /\
  (normalize = true -> ~ Qeq (c 0) 0%Q -> measCovariance t im1 im2 dx dy dz maxSteps normalize = Some (map (fun k => Some (Qdiv (c k) (c 0))) (zseq (n + 1)))).
Proof.
  intros W1 W2 S D1 D2 D3 X Y Z0 P M N Nx Ny Nz Hn B c. pose proof (steps_value (sz im1) dx dy dz maxSteps n) as E. unfold measCovariance. rewrite (covariance_ok t im1 im2 dx dy dz maxSteps normalize); try assumption; rewrite ?E; try assumption; try lia.
  split; intros ->; [reflexivity|]. intros C. fold (c 0). destruct (Qeq_bool (c 0) 0%Q) eqn:Eq; [apply Qeq_bool_iff in Eq; contradiction|reflexivity].
Qed.
Print Assumptions C110_covariance_partial.

(** Pixels of 8 and 16 bits (signed) never overflow the products. *)
Theorem C110_products t im1 im2 u v : In t [UINT8; INT8; INT16] -> typed_img t im1 -> typed_img t im2 -> In u (pixs im1) -> In v (pixs im2) -> product_fits t (u * v).
Proof.
  intros Ht H1 H2 Hu Hv. unfold typed_img in *. rewrite Forall_forall in *. specialize (H1 u Hu). specialize (H2 v Hv). destruct Ht as [<-|[<-|[<-|[]]]]; unfold inty in *; cbn in *; nia.
Qed.
Print Assumptions C110_products.

(** The auto-covariance at displacement 0 is the mean of the squares. *)
Theorem C110_origin im : wf_img im -> 0 < dw (sz im) * dh (sz im) * dd (sz im) ->
  (covar im im 0%Z 0%Z 0%Z * inject_Z (Z.of_nat (length (pixs im))) == inject_Z (Zsum (map (fun v => v * v)%Z (pixs im))))%Q.
Proof.
  intros W N. pose proof W as ((D1 & D2 & D3) & L). unfold covar. rewrite kept_length by lia. rewrite !Z.sub_0_r, <- L.
  assert (E : Zsum (map (fun '(x, y, z) => value im x y z * value im (x + 0) (y + 0) (z + 0)) (kept (sz im) 0 0 0)) = Zsum (map (fun v => v * v) (pixs im))).
  { unfold kept. rewrite (filter_all_in _ (grid (sz im))) by (intros ((x & y) & z) Hp; apply grid_In in Hp; unfold inside in Hp; lia).
    rewrite grid_zseq by (repeat split; assumption). rewrite map_map, <- L. rewrite (map_ext_in _ (fun k => znth 0 (pixs im) k * znth 0 (pixs im) k)).
    - rewrite <- (map_map (znth 0 (pixs im)) (fun v => v * v)). f_equal. f_equal. symmetry. apply list_ext_rd; [rewrite map_length, zseq_length; lia|]. intros k Hk. rewrite rd_map, rd_zseq by lia. cbn. apply rd_znth. exact Hk.
    - intros k Hk. apply zseq_In in Hk. rewrite !Z.add_0_r, value_k by (try assumption; lia). reflexivity. }
  rewrite E. field. intros Z0. apply (proj1 (inject_Z_injective _ 0)) in Z0. lia.
Qed.
Print Assumptions C110_origin.

(** A step of 2 pixels: the last displacements are cut at the border and repeated. *)
Theorem C110_step_refuted :
  ~ (forall im dx n, wf_img im -> 0 < dx -> 0 < n < dw (sz im) -> (forall k, 0 <= k <= n -> cov_exact UINT8 im im (dx * k) 0 0) ->
     measAutoCovariance UINT8 im dx 0 0 n false = Some (map (fun k => Some (covar im im (dx * k) 0 0)) (zseq (n + 1)))).
Proof.
  intros H. specialize (H (Img (Dims 4 1 1) [1; 2; 3; 4]) 2 2). assert (E : measAutoCovariance UINT8 (Img (Dims 4 1 1) [1; 2; 3; 4]) 2 0 0 2 false <> Some (map (fun k => Some (covar (Img (Dims 4 1 1) [1; 2; 3; 4]) (Img (Dims 4 1 1) [1; 2; 3; 4]) (2 * k) 0 0)) (zseq 3))) by (vm_compute; discriminate).
  apply E, H; clear; [split; [repeat split; cbn; lia|reflexivity]|lia|cbn; lia|].
  intros k Hk. split.
  - intros x y z u v (_ & Hu) (_ & Hv). apply rd_In in Hu, Hv. unfold product_fits. cbn in Hu, Hv. repeat destruct Hu as [<-|Hu]; try contradiction; repeat destruct Hv as [<-|Hv]; try contradiction; lia.
  - assert (K : k = 0 \/ k = 1 \/ k = 2) by lia. destruct K as [K|[K|K]]; subst k; vm_compute; discriminate.
Qed.
Print Assumptions C110_step_refuted.

(** Products of 16-bit pixels are computed in [int]: undefined behaviour; products of 32-bit pixels wrap. *)
Theorem C110_overflow_refuted :
  measAutoCovariance UINT16 (Img (Dims 2 1 1) [65535; 65535]) 1 0 0 0 false = None /\
  measAutoCovariance UINT32 (Img (Dims 2 1 1) [65536; 65536]) 1 0 0 0 false = Some [Some (0 # 2); Some (0 # 1)]%Q /\
  Qeq (covar (Img (Dims 2 1 1) [65536; 65536]) (Img (Dims 2 1 1) [65536; 65536]) 0 0 0) (inject_Z (2 ^ 32)).
Proof. split; [|split]; reflexivity. Qed.
Print Assumptions C110_overflow_refuted.

(** The normalised auto-covariance may exceed 1, and is NaN for a null image. *)
Theorem C110_normalised_refuted :
  measAutoCovariance UINT8 (Img (Dims 4 1 1) [1; 0; 0; 1]) 1 0 0 0 true = Some [Some ((2 # 4) / (2 # 4)); Some ((0 # 3) / (2 # 4)); Some ((0 # 2) / (2 # 4)); Some (1 / (2 # 4))]%Q /\
  (1 < 1 / (2 # 4))%Q /\
  measAutoCovariance UINT8 (Img (Dims 2 1 1) [0; 0]) 1 0 0 0 true = Some [None; None].
Proof. split; [|split]; reflexivity. Qed.
Print Assumptions C110_normalised_refuted.

Definition ridge : img := Img (Dims 3 2 1) [1; 2; 3; 4; 5; 6].
Example C110_case : wf_img ridge /\ (forall k, 0 <= k <= 2 -> cov_exact UINT8 ridge ridge (1 * k) (0 * k) (0 * k)) /\
  option_map (map (option_map Qred)) (measAutoCovariance UINT8 ridge 1 0 0 0 false) = Some [Some (91 # 6); Some (29 # 2); Some (27 # 2)]%Q.
Proof.
  split; [split; [repeat split; cbn; lia|reflexivity]|]. split; [|reflexivity]. intros k Hk. split.
  - intros x y z u v (_ & Hu) (_ & Hv). apply rd_In in Hu, Hv. unfold product_fits. cbn in Hu, Hv. repeat destruct Hu as [<-|Hu]; try contradiction; repeat destruct Hv as [<-|Hv]; try contradiction; lia.
  - assert (K : k = 0 \/ k = 1 \/ k = 2) by lia. destruct K as [K|[K|K]]; subst k; vm_compute; discriminate.
Qed.
