(** Proofs about blobsMedianVal. *)
From Verif Require Export Proofs.BlobValueProofs Model.BlobMedian.
Local Open Scope Z_scope.

Definition med (t : ity) (l : list Z) : Z := let s := fold_left median_step l ([], 0) in wrap t (median_scan (fst s) 0 (snd s)).

(** The values of a label, as an image of one line. *)
Lemma med_ok t l : (forall u, In u l -> inty t u /\ u < 2 ^ 31) ->
  ((forall u, In u l -> u <= 0) -> med t l = 0) /\
  ((exists u, In u l /\ 0 < u) ->
     0 < med t l /\ In (med t l) l /\ 2 * pos_le (med t l) l > pos_all l /\ forall u, u < med t l -> 2 * pos_le u l <= pos_all l).
Proof.
  intros H. set (im := Img (Dims (Z.of_nat (length l)) 1 1) l).
  assert (W : wf_img im) by (split; [repeat split; cbn; lia|cbn [pixs sz dw dh dd im]; lia]).
  destruct (medianVal_ok t false im W) as (m & E & R); [apply Forall_forall; intros u Hu; apply (H u Hu)|intros u Hu; apply (H u Hu)|].
  unfold medianVal in E. rewrite process_image_fold in E by exact W. cbn [option_map] in E. injection E as E. change (considered false im) with l in E. fold (med t l) in E. rewrite E. exact R.
Qed.

Lemma blobs_median_ok t onz lab im : wf_img lab -> 0 < dw (sz lab) -> length (pixs lab) = length (pixs im) ->
  exists b res, computeBlobs onz lab = Some b /\ process_blobs (blob_median t) b im = Some res /\ StronglySorted Z.lt (mkeys res) /\
    (forall v, In v (mkeys res) <-> label_kept onz v = true /\ In v (pixs lab)) /\
    (forall v, label_kept onz v = true -> In v (pixs lab) -> mfind v res = Some (med t (zone im lab v))).
Proof.
  intros Hwf Hw HL. apply (process_blobs_ok (blob_median t) (med t) (fun _ => True) onz lab im Hwf Hw HL); [|auto].
  intros seqs HR HF _ _. unfold blob_median.
  rewrite (process_blob_fold _ (fun s v => Some (median_step s v))); [|exact HR|exact HF|].
  - rewrite (fold_opt_total _ median_step) by reflexivity. reflexivity.
  - intros s a n _. rewrite (fold_opt_total _ median_step) by reflexivity. reflexivity.
Qed.
