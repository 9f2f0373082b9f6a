(** C128: moments of blobs (DBlobMeasures.hpp). *)
From Verif Require Import Proofs.BlobMomentProofs.
From Coq Require Import QArith.
Local Open Scope Z_scope.

(** The part of the image under a label, as used below. *)
Theorem C128_under im lab v x y z a :
  wf_img im -> wf_img lab -> sz lab = sz im ->
  (pixel_is (under_label im lab v) x y z a <-> exists p l, pixel_is im x y z p /\ pixel_is lab x y z l /\ ((l = v /\ a = p) \/ (l <> v /\ a = 0))).
Proof.
  intros W WL ES. assert (EL : length (pixs lab) = length (pixs im)) by (apply Nat2Z.inj; rewrite (proj2 W), (proj2 WL), ES; reflexivity).
  unfold pixel_is. rewrite ES. change (sz (under_label im lab v)) with (sz im). set (k := voxel_offset (dw (sz im)) (dh (sz im)) x y z).
  assert (V : 0 <= k < Z.of_nat (length (pixs im)) -> rd (pixs (under_label im lab v)) k = Some (if znth 0 (pixs lab) k =? v then znth 0 (pixs im) k else 0)).
  { intros Hk. rewrite <- combine_znth by assumption. apply (rd_znth 0 (pixs (under_label im lab v))). rewrite under_length by exact EL. exact Hk. }
  split.
  - intros (I & R). pose proof (rd_Some_range _ _ _ R) as Rg. rewrite under_length in Rg by exact EL. rewrite (V Rg) in R. injection R as <-. exists (znth 0 (pixs im) k), (znth 0 (pixs lab) k).
    split; [split; [exact I|apply rd_znth; exact Rg]|]. split; [split; [exact I|apply rd_znth; lia]|]. destruct (Z.eqb_spec (znth 0 (pixs lab) k) v); [left|right]; split; auto.
  - intros (p & l & (I & R1) & (_ & R2) & C). split; [exact I|]. rewrite V by (apply rd_Some_range in R1; exact R1). rewrite (znth_rd 0 _ _ _ R1), (znth_rd 0 _ _ _ R2). destruct (Z.eqb_spec l v); f_equal; lia.
Qed.
Print Assumptions C128_under.

(** The moments of a label are those of the part of the image under it. *)
Theorem C128_moments onlyNonZero lab im :
  wf_img im -> wf_img lab -> sz lab = sz im -> 0 < dw (sz im) -> Z.of_nat (length (pixs im)) <= 2 ^ 64 -> exact_order2 im ->
  exists b res, computeBlobs onlyNonZero lab = Some b /\ blobsMoments im b false = Some res /\
    StronglySorted Z.lt (mkeys res) /\
    (forall v, In v (mkeys res) <-> label_kept onlyNonZero v = true /\ In v (pixs lab)) /\
    (forall v, label_kept onlyNonZero v = true -> In v (pixs lab) -> mfind v res = Some (map inject_Z (moment_values (under_label im lab v)))).
Proof.
  intros W WL ES W0 BL B.
  destruct (process_blobs_key blob_moments (fun v => moment_values (under_label im lab v)) onlyNonZero lab im WL) as (b & res & E1 & E2 & S1 & S2 & S3).
  - rewrite ES. exact W0.
  - rewrite ES. intros v seqs HF HK. apply blob_moments_ok; assumption.
  - exists b. eexists. split; [exact E1|]. unfold blobsMoments. rewrite E2. split; [reflexivity|]. rewrite (mkeys_on_map (map inject_Z)). split; [exact S1|]. split; [exact S2|].
    intros v K1 K2. rewrite (mfind_on_map (map inject_Z)), (S3 v K1 K2). reflexivity.
Qed.
Print Assumptions C128_moments.

(** The centred ones are the second moments about the barycentre of the label, when its mass is positive. *)
Theorem C128_centred_partial onlyNonZero lab im :
  wf_img im -> wf_img lab -> sz lab = sz im -> 0 < dw (sz im) -> Z.of_nat (length (pixs im)) <= 2 ^ 64 -> exact_order2 im ->
  exists b res, computeBlobs onlyNonZero lab = Some b /\ blobsMoments im b true = Some res /\
    StronglySorted Z.lt (mkeys res) /\
    (forall v, In v (mkeys res) <-> label_kept onlyNonZero v = true /\ In v (pixs lab)) /\
    (forall v, label_kept onlyNonZero v = true -> In v (pixs lab) -> 0 < weighted_on im lab v one3 ->
       exists l, mfind v res = Some l /\ Forall2 Qeq l (centred_values (under_label im lab v))).
Proof.
  intros W WL ES W0 BL B.
  assert (EL : length (pixs lab) = length (pixs im)) by (apply Nat2Z.inj; rewrite (proj2 W), (proj2 WL), ES; reflexivity).
  destruct (process_blobs_key blob_moments (fun v => moment_values (under_label im lab v)) onlyNonZero lab im WL) as (b & res & E1 & E2 & S1 & S2 & S3).
  - rewrite ES. exact W0.
  - rewrite ES. intros v seqs HF HK. apply blob_moments_ok; assumption.
  - exists b. eexists. split; [exact E1|]. unfold blobsMoments. rewrite E2. split; [reflexivity|]. rewrite (mkeys_on_map centerMoments). split; [exact S1|]. split; [exact S2|].
    intros v K1 K2 M. rewrite (mfind_on_map centerMoments), (S3 v K1 K2). rewrite under_weighted in M by assumption.
    pose proof (under_wf im lab v EL W) as WU. pose proof (under_exact im lab v W WL ES B) as BU.
    destruct (centred_ok false (under_label im lab v) WU W0 BU M) as (l & E & F). unfold measMoments in E. rewrite (moments_func_ok false _ WU W0 BU) in E. injection E as <-.
    eexists. split; [reflexivity|exact F].
Qed.
Print Assumptions C128_centred_partial.

(** From the label image alone, the label is the weight of all its pixels. *)
Theorem C128_labels onlyNonZero lab :
  wf_img lab -> 0 < dw (sz lab) -> Z.of_nat (length (pixs lab)) <= 2 ^ 64 -> exact_order2 lab ->
  exists res, blobsMoments_labels onlyNonZero false lab = Some res /\
    (forall v, In v (mkeys res) <-> label_kept onlyNonZero v = true /\ In v (pixs lab)) /\
    (forall v, label_kept onlyNonZero v = true -> In v (pixs lab) ->
       exists l, mfind v res = Some (map inject_Z (map (Z.mul v) l)) /\
         l = map (total_on lab v) (if dd (sz lab) >? 1 then [one3; px_x; px_y; px_z; times px_x px_y; times px_x px_z; times px_y px_z; times px_x px_x; times px_y px_y; times px_z px_z]
                                   else [one3; px_x; px_y; times px_x px_y; times px_x px_x; times px_y px_y])).
Proof.
  intros W W0 BL B. destruct (C128_moments onlyNonZero lab lab W W eq_refl W0 BL B) as (b & res & E1 & E2 & _ & S2 & S3).
  exists res. unfold blobsMoments_labels. rewrite E1. split; [exact E2|]. split; [exact S2|]. intros v K1 K2. eexists. split; [|reflexivity]. rewrite (S3 v K1 K2). unfold moment_values. change (sz (under_label lab lab v)) with (sz lab).
  f_equal. f_equal. rewrite map_map. destruct (dd (sz lab) >? 1); cbn [map]; rewrite <- !under_weighted by (try assumption; reflexivity); rewrite !weighted_own; reflexivity.
Qed.
Print Assumptions C128_labels.

(** Two labels measured on an image. *)
Definition mom_lab : img := Img (Dims 3 2 1) [1; 1; 0; 2; 1; 2].
Definition mom_im : img := Img (Dims 3 2 1) [3; 1; 9; 2; 0; 2].
Example C128_case :
  wf_img mom_lab /\ wf_img mom_im /\ exact_order2 mom_im /\ 0 < weighted_on mom_im mom_lab 1 one3 /\
  option_bind (computeBlobs true mom_lab) (fun b => option_map (fun r => (mkeys r, mfind 1 r, mfind 2 r)) (blobsMoments mom_im b false)) =
    Some ([1; 2], Some (map inject_Z [4; 1; 0; 0; 1; 0]), Some (map inject_Z [4; 4; 4; 4; 8; 4])).
Proof.
  split; [split; [repeat split; cbn; lia|reflexivity]|]. split; [split; [repeat split; cbn; lia|reflexivity]|]. split; [repeat split; vm_compute; discriminate|]. split; reflexivity.
Qed.

(** A label whose values sum to a negative number has null centred moments, although its pixels are spread. *)
Theorem C128_negative_refuted :
  ~ (forall lab im, wf_img im -> wf_img lab -> sz lab = sz im -> 0 < dw (sz im) -> Z.of_nat (length (pixs im)) <= 2 ^ 64 -> exact_order2 im ->
     exists b res, computeBlobs true lab = Some b /\ blobsMoments im b true = Some res /\
       (forall v, v <> 0 -> In v (pixs lab) -> weighted_on im lab v one3 <> 0 -> exists l, mfind v res = Some l /\ Forall2 Qeq l (centred_values (under_label im lab v)))).
Proof.
  intros H. set (lab := Img (Dims 2 1 1) [-1; -1]).
  destruct (H lab lab) as (b & res & E1 & E2 & F); try (split; [repeat split; cbn; lia|reflexivity]); try reflexivity; [cbn; lia|repeat split; vm_compute; discriminate|].
  vm_compute in E1. injection E1 as <-. vm_compute in E2. injection E2 as <-.
  destruct (F (-1)) as (l & E & N); [lia|left; reflexivity|vm_compute; discriminate|]. vm_compute in E. injection E as <-. inversion N as [|? ? ? ? E0]. vm_compute in E0. discriminate.
Qed.
Print Assumptions C128_negative_refuted.
