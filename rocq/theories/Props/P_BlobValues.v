(** C129: smallest, greatest and most frequent values of blobs, and their lists of values (DBlobMeasures.hpp). *)
From Verif Require Import Proofs.BlobValueProofs.
Local Open Scope Z_scope.

(** The least and the greatest value of the image on the pixels of each label. *)
Theorem C129_min_max t onlyNonZero lab im :
  wf_img im -> wf_img lab -> sz lab = sz im -> 0 < dw (sz im) -> typed_img t im ->
  exists b mins maxs, computeBlobs onlyNonZero lab = Some b /\ process_blobs (blob_min t) b im = Some mins /\ process_blobs (blob_max t) b im = Some maxs /\
    StronglySorted Z.lt (mkeys mins) /\ StronglySorted Z.lt (mkeys maxs) /\
    (forall v, In v (mkeys mins) <-> label_kept onlyNonZero v = true /\ In v (pixs lab)) /\
    (forall v, In v (mkeys maxs) <-> label_kept onlyNonZero v = true /\ In v (pixs lab)) /\
    (forall v, label_kept onlyNonZero v = true -> In v (pixs lab) ->
       exists lo hi, mfind v mins = Some lo /\ mfind v maxs = Some hi /\
         (exists x y z, pixel_is lab x y z v /\ pixel_is im x y z lo) /\ (exists x y z, pixel_is lab x y z v /\ pixel_is im x y z hi) /\
         forall x y z u, pixel_is lab x y z v -> pixel_is im x y z u -> lo <= u <= hi).
Proof.
  intros W WL ES W0 HT. assert (EL : length (pixs lab) = length (pixs im)) by (apply Nat2Z.inj; rewrite (proj2 W), (proj2 WL), ES; reflexivity). assert (W0' : 0 < dw (sz lab)) by (rewrite ES; exact W0).
  destruct (blobs_min_ok t onlyNonZero lab im WL W0' EL HT) as (b & mins & A1 & A2 & A3 & A4 & A5). destruct (blobs_max_ok t onlyNonZero lab im WL W0' EL HT) as (b' & maxs & B1 & B2 & B3 & B4 & B5).
  rewrite A1 in B1. injection B1 as <-. exists b, mins, maxs. split; [exact A1|]. split; [exact A2|]. split; [exact B2|]. split; [exact A3|]. split; [exact B3|]. split; [exact A4|]. split; [exact B4|].
  intros v K1 K2. destruct (A5 v K1 K2) as (lo & F1 & I1 & L1). destruct (B5 v K1 K2) as (hi & F2 & I2 & L2). exists lo, hi. split; [exact F1|]. split; [exact F2|].
  split; [apply zone_pixels; assumption|]. split; [apply zone_pixels; assumption|]. intros x y z u P Q. assert (I : In u (zone im lab v)) by (apply zone_pixels; try assumption; eauto). split; [apply L1|apply L2]; exact I.
Qed.
Print Assumptions C129_min_max.

(** The values of the image on each label, in increasing order and each once. *)
Theorem C129_values onlyNonZero lab im :
  wf_img im -> wf_img lab -> sz lab = sz im -> 0 < dw (sz im) ->
  exists b res, computeBlobs onlyNonZero lab = Some b /\ process_blobs blob_values b im = Some res /\ StronglySorted Z.lt (mkeys res) /\
    (forall v, In v (mkeys res) <-> label_kept onlyNonZero v = true /\ In v (pixs lab)) /\
    (forall v, label_kept onlyNonZero v = true -> In v (pixs lab) ->
       exists l, mfind v res = Some l /\ StronglySorted Z.lt l /\ forall u, In u l <-> exists x y z, pixel_is lab x y z v /\ pixel_is im x y z u).
Proof.
  intros W WL ES W0. assert (EL : length (pixs lab) = length (pixs im)) by (apply Nat2Z.inj; rewrite (proj2 W), (proj2 WL), ES; reflexivity). assert (W0' : 0 < dw (sz lab)) by (rewrite ES; exact W0).
  destruct (blobs_values_ok onlyNonZero lab im WL W0' EL) as (b & res & A1 & A2 & A3 & A4 & A5). exists b, res. split; [exact A1|]. split; [exact A2|]. split; [exact A3|]. split; [exact A4|].
  intros v K1 K2. destruct (A5 v K1 K2) as (l & F & S & I). exists l. split; [exact F|]. split; [exact S|]. intros u. rewrite I. apply zone_pixels; assumption.
Qed.
Print Assumptions C129_values.

(** The most frequent of the positive values on each label, and 0 when there is none. *)
Theorem C129_mode_partial t onlyNonZero lab im :
  wf_img im -> wf_img lab -> sz lab = sz im -> 0 < dw (sz im) -> typed_img t im ->
  exists b res, computeBlobs onlyNonZero lab = Some b /\ process_blobs blob_mode b im = Some res /\ StronglySorted Z.lt (mkeys res) /\
    (forall v, In v (mkeys res) <-> label_kept onlyNonZero v = true /\ In v (pixs lab)) /\
    (forall v, label_kept onlyNonZero v = true -> In v (pixs lab) -> exists m, mfind v res = Some (Some m) /\
       ((m = 0 /\ forall u, In u (zone im lab v) -> u <= 0) \/
        (0 < m /\ In m (zone im lab v) /\ forall u, In u (zone im lab v) -> 0 < u -> (count_occ Z.eq_dec (zone im lab v) u <= count_occ Z.eq_dec (zone im lab v) m)%nat))).
Proof.
  intros W WL ES W0 HT. apply (blobs_mode_ok t); try assumption; [rewrite ES; exact W0|]. apply Nat2Z.inj. rewrite (proj2 W), (proj2 WL), ES. reflexivity.
Qed.
Print Assumptions C129_mode_partial.

(** The null pixels do not count, even when they are the most frequent, and the value given may not be on the label at all. *)
Theorem C129_mode_refuted :
  (exists lab im b res, wf_img im /\ wf_img lab /\ sz lab = sz im /\ typed_img UINT8 im /\ computeBlobs true lab = Some b /\ process_blobs blob_mode b im = Some res /\
     mfind 1 res = Some (Some 5) /\ (count_occ Z.eq_dec (zone im lab 1%Z) 5%Z < count_occ Z.eq_dec (zone im lab 1%Z) 0%Z)%nat) /\
  (exists lab im b res, wf_img im /\ wf_img lab /\ sz lab = sz im /\ typed_img INT8 im /\ computeBlobs true lab = Some b /\ process_blobs blob_mode b im = Some res /\
     mfind 1 res = Some (Some 0) /\ ~ In 0 (zone im lab 1)).
Proof.
  split.
  - exists (Img (Dims 3 1 1) [1; 1; 1]), (Img (Dims 3 1 1) [0; 5; 0]). eexists _, _. split; [split; [repeat split; cbn; lia|reflexivity]|]. split; [split; [repeat split; cbn; lia|reflexivity]|]. split; [reflexivity|]. split; [repeat constructor; cbn; lia|]. split; [reflexivity|]. split; [reflexivity|]. split; [reflexivity|]. vm_compute. constructor.
  - exists (Img (Dims 2 1 1) [1; 1]), (Img (Dims 2 1 1) [-3; -3]). eexists _, _. split; [split; [repeat split; cbn; lia|reflexivity]|]. split; [split; [repeat split; cbn; lia|reflexivity]|]. split; [reflexivity|]. split; [repeat constructor; cbn; lia|]. split; [reflexivity|]. split; [reflexivity|]. split; [reflexivity|]. cbn. lia.
Qed.
Print Assumptions C129_mode_refuted.

(** A label over two lines, measured on another image. *)
Definition val_lab : img := Img (Dims 3 2 1) [4; 4; 0; 7; 4; 4].
Definition val_im : img := Img (Dims 3 2 1) [9; 3; 1; 2; 3; 8].
Example C129_case :
  wf_img val_lab /\ wf_img val_im /\ typed_img UINT8 val_im /\
  option_bind (computeBlobs true val_lab) (fun b => option_map (mfind 4) (process_blobs (blob_min UINT8) b val_im)) = Some (Some 3) /\
  option_bind (computeBlobs true val_lab) (fun b => option_map (mfind 4) (process_blobs (blob_max UINT8) b val_im)) = Some (Some 9) /\
  option_bind (computeBlobs true val_lab) (fun b => option_map (mfind 4) (process_blobs blob_values b val_im)) = Some (Some [3; 8; 9]) /\
  option_bind (computeBlobs true val_lab) (fun b => option_map (mfind 4) (process_blobs blob_mode b val_im)) = Some (Some (Some 3)).
Proof.
  split; [split; [repeat split; cbn; lia|reflexivity]|]. split; [split; [repeat split; cbn; lia|reflexivity]|]. split; [repeat constructor; cbn; lia|]. repeat split; reflexivity.
Qed.
