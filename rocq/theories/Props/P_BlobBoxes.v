(** C127: bounding boxes of blobs (DBlobMeasures.hpp). *)
From Verif Require Import Proofs.BlobBoxProofs.
Local Open Scope Z_scope.

(** For the blobs of a label image, measured on any image of the same size. *)
Theorem C127_boxes onlyNonZero lab im :
  wf_img im -> wf_img lab -> sz lab = sz im -> 0 < dw (sz im) -> Z.of_nat (length (pixs im)) <= 2 ^ 64 ->
  dw (sz lab) < 2 ^ 32 -> dh (sz lab) < 2 ^ 32 -> dd (sz lab) < 2 ^ 32 ->
  exists b res, computeBlobs onlyNonZero lab = Some b /\ blobsBoundBox im b = Some res /\
    StronglySorted Z.lt (mkeys res) /\
    (forall v, In v (mkeys res) <-> label_kept onlyNonZero v = true /\ In v (pixs lab)) /\
    (forall v, label_kept onlyNonZero v = true -> In v (pixs lab) ->
       exists x0 y0 z0 x1 y1 z1,
         mfind v res = Some (if dd (sz lab) >? 1 then [x0; y0; z0; x1; y1; z1] else [x0; y0; x1; y1]) /\
         (forall x y z, pixel_is lab x y z v -> x0 <= x <= x1 /\ y0 <= y <= y1 /\ (1 < dd (sz lab) -> z0 <= z <= z1)) /\
         (exists y z, pixel_is lab x0 y z v) /\ (exists y z, pixel_is lab x1 y z v) /\
         (exists x z, pixel_is lab x y0 z v) /\ (exists x z, pixel_is lab x y1 z v) /\
         (1 < dd (sz lab) -> (exists x y, pixel_is lab x y z0 v) /\ (exists x y, pixel_is lab x y z1 v))).
Proof.
  intros W WL ES W0 BL D1 D2 D3.
  destruct (process_blobs_key blob_box (fun v => box_list (dd (sz im) >? 1) (box_fold (sz im) (lab_k lab v))) onlyNonZero lab im WL) as (b & res & E1 & E2 & S1 & S2 & S3).
  - rewrite ES. exact W0.
  - rewrite ES. intros v seqs HF HK. apply blob_box_ok; assumption.
  - exists b, res. split; [exact E1|]. split; [exact E2|]. split; [exact S1|]. split; [exact S2|]. intros v K1 K2.
    destruct (box_of_label lab v WL D1 D2 D3 K2) as (x0 & y0 & z0 & x1 & y1 & z1 & E & R). exists x0, y0, z0, x1, y1, z1. split; [|exact R]. rewrite (S3 v K1 K2), <- ES. f_equal. exact E.
Qed.
Print Assumptions C127_boxes.

(** From the label image alone, the same boxes. *)
Theorem C127_labels onlyNonZero lab :
  wf_img lab -> 0 < dw (sz lab) -> Z.of_nat (length (pixs lab)) <= 2 ^ 64 ->
  dw (sz lab) < 2 ^ 32 -> dh (sz lab) < 2 ^ 32 -> dd (sz lab) < 2 ^ 32 ->
  exists res, blobsBoundBox_labels onlyNonZero lab = Some res /\
    (forall v, In v (mkeys res) <-> label_kept onlyNonZero v = true /\ In v (pixs lab)) /\
    (forall v, label_kept onlyNonZero v = true -> In v (pixs lab) ->
       exists x0 y0 z0 x1 y1 z1,
         mfind v res = Some (if dd (sz lab) >? 1 then [x0; y0; z0; x1; y1; z1] else [x0; y0; x1; y1]) /\
         (forall x y z, pixel_is lab x y z v -> x0 <= x <= x1 /\ y0 <= y <= y1 /\ (1 < dd (sz lab) -> z0 <= z <= z1)) /\
         (exists y z, pixel_is lab x0 y z v) /\ (exists y z, pixel_is lab x1 y z v) /\
         (exists x z, pixel_is lab x y0 z v) /\ (exists x z, pixel_is lab x y1 z v) /\
         (1 < dd (sz lab) -> (exists x y, pixel_is lab x y z0 v) /\ (exists x y, pixel_is lab x y z1 v))).
Proof.
  intros W W0 BL D1 D2 D3. destruct (C127_boxes onlyNonZero lab lab W W eq_refl W0 BL D1 D2 D3) as (b & res & E1 & E2 & _ & S2 & S3).
  exists res. unfold blobsBoundBox_labels. rewrite E1. split; [exact E2|]. split; [exact S2|exact S3].
Qed.
Print Assumptions C127_labels.

(** A label in two pieces, in two slices, and the background. *)
Definition box_case : img := Img (Dims 4 2 2) [0; 5; 5; 0; 2; 0; 0; 0; 2; 0; 0; 5; 0; 0; 0; 0].
Example C127_case :
  wf_img box_case /\
  option_map (fun r => (mkeys r, mfind 2 r, mfind 5 r)) (blobsBoundBox_labels true box_case) = Some ([2; 5], Some [0; 0; 0; 0; 1; 1], Some [1; 0; 0; 3; 0; 1]) /\
  option_map (fun r => mfind 0 r) (blobsBoundBox_labels false box_case) = Some (Some [0; 0; 0; 3; 1; 1]).
Proof. split; [split; [repeat split; cbn; lia|reflexivity]|]. split; reflexivity. Qed.
