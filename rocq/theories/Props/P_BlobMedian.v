(** C130: medians of blobs (DBlobMeasures.hpp). *)
From Verif Require Import Proofs.BlobMedianProofs.
Local Open Scope Z_scope.

(** The median of the positive values on each label: the least with more than half of them at or below it; 0 when there is none. *)
Theorem C130_median_partial t onlyNonZero lab im :
  wf_img im -> wf_img lab -> sz lab = sz im -> 0 < dw (sz im) -> typed_img t im -> (forall u, In u (pixs im) -> u < 2 ^ 31) ->
  exists b res, computeBlobs onlyNonZero lab = Some b /\ process_blobs (blob_median t) b im = Some res /\ StronglySorted Z.lt (mkeys res) /\
    (forall v, In v (mkeys res) <-> label_kept onlyNonZero v = true /\ In v (pixs lab)) /\
    (forall v, label_kept onlyNonZero v = true -> In v (pixs lab) ->
       let l := zone im lab v in
       exists m, mfind v res = Some m /\
         ((forall u, In u l -> u <= 0) -> m = 0) /\
         ((exists u, In u l /\ 0 < u) -> 0 < m /\ In m l /\ 2 * pos_le m l > pos_all l /\ forall u, u < m -> 2 * pos_le u l <= pos_all l)).
Proof.
  intros W WL ES W0 HT HB. assert (EL : length (pixs lab) = length (pixs im)) by (apply Nat2Z.inj; rewrite (proj2 W), (proj2 WL), ES; reflexivity). assert (W0' : 0 < dw (sz lab)) by (rewrite ES; exact W0).
  destruct (blobs_median_ok t onlyNonZero lab im WL W0' EL) as (b & res & A1 & A2 & A3 & A4 & A5). exists b, res. split; [exact A1|]. split; [exact A2|]. split; [exact A3|]. split; [exact A4|].
  intros v K1 K2 l. exists (med t l). split; [apply A5; assumption|]. apply med_ok. intros u Hu. apply zone_In in Hu. unfold typed_img in HT. rewrite Forall_forall in HT. split; [apply HT|apply HB]; exact Hu.
Qed.
Print Assumptions C130_median_partial.

(** Null pixels do not count: a label with a majority of zeros has a positive median; values from 2^31 on are sorted first. *)
Theorem C130_median_refuted :
  (exists lab im b res, wf_img im /\ wf_img lab /\ sz lab = sz im /\ typed_img UINT8 im /\ computeBlobs true lab = Some b /\ process_blobs (blob_median UINT8) b im = Some res /\
     mfind 1 res = Some 5 /\ (2 * count_occ Z.eq_dec (zone im lab 1%Z) 0%Z > length (zone im lab 1%Z))%nat) /\
  (exists lab im b res, wf_img im /\ wf_img lab /\ sz lab = sz im /\ typed_img UINT32 im /\ computeBlobs true lab = Some b /\ process_blobs (blob_median UINT32) b im = Some res /\
     mfind 1 res = Some (2 ^ 31 + 1) /\ 2 * pos_le (2 ^ 31) (zone im lab 1) > pos_all (zone im lab 1)).
Proof.
  split.
  - exists (Img (Dims 3 1 1) [1; 1; 1]), (Img (Dims 3 1 1) [0; 5; 0]). eexists _, _. split; [split; [repeat split; cbn; lia|reflexivity]|]. split; [split; [repeat split; cbn; lia|reflexivity]|]. split; [reflexivity|]. split; [repeat constructor; cbn; lia|]. split; [reflexivity|]. split; [reflexivity|]. split; [reflexivity|]. cbn. lia.
  - exists (Img (Dims 3 1 1) [1; 1; 1]), (Img (Dims 3 1 1) [1; 2 ^ 31; 2 ^ 31 + 1]). eexists _, _. split; [split; [repeat split; cbn; lia|reflexivity]|]. split; [split; [repeat split; cbn; lia|reflexivity]|]. split; [reflexivity|]. split; [repeat constructor; cbn; lia|]. split; [reflexivity|]. split; [reflexivity|]. split; [reflexivity|]. vm_compute. reflexivity.
Qed.
Print Assumptions C130_median_refuted.

(** A label over two lines, measured on another image. *)
Definition med_lab : img := Img (Dims 3 2 1) [4; 4; 0; 7; 4; 4].
Definition med_im : img := Img (Dims 3 2 1) [9; 3; 1; 2; 0; 8].
Example C130_case :
  wf_img med_lab /\ wf_img med_im /\ typed_img UINT8 med_im /\
  option_bind (computeBlobs true med_lab) (fun b => option_map (fun r => (mfind 4 r, mfind 7 r)) (process_blobs (blob_median UINT8) b med_im)) = Some (Some 8, Some 2).
Proof. split; [split; [repeat split; cbn; lia|reflexivity]|]. split; [split; [repeat split; cbn; lia|reflexivity]|]. split; [repeat constructor; cbn; lia|]. reflexivity. Qed.
