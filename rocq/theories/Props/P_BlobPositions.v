(** C126: barycentres of blobs (DBlobMeasures.hpp). *)
From Coq Require Import Lqa.
From Verif Require Import Proofs.BlobPositionProofs.
From Coq Require Import QArith.
Local Open Scope Z_scope.

(** The keys are the labels, and the barycentre of each is that of the values of the image on its pixels. *)
Theorem C126_weighted_partial onlyNonZero lab im :
  wf_img im -> wf_img lab -> sz lab = sz im -> 0 < dw (sz im) -> Z.of_nat (length (pixs im)) <= 2 ^ 64 -> exact_order1 im ->
  exists b res, computeBlobs onlyNonZero lab = Some b /\ blobsBarycenter im b = Some res /\
    StronglySorted Z.lt (mkeys res) /\
    (forall v, In v (mkeys res) <-> label_kept onlyNonZero v = true /\ In v (pixs lab)) /\
    (forall v, label_kept onlyNonZero v = true -> In v (pixs lab) -> weighted_on im lab v one3 <> 0 ->
       exists bx by_ bz, mfind v res = Some (Some bx :: Some by_ :: (if dd (sz im) >? 1 then [Some bz] else [])) /\
         (bx * inject_Z (weighted_on im lab v one3) == inject_Z (weighted_on im lab v px_x))%Q /\
         (by_ * inject_Z (weighted_on im lab v one3) == inject_Z (weighted_on im lab v px_y))%Q /\
         (bz * inject_Z (weighted_on im lab v one3) == inject_Z (weighted_on im lab v px_z))%Q).
Proof.
  intros W WL ES W0 BL B.
  destruct (process_blobs_key blob_bary (fun v => [ratio (weighted_on im lab v px_x) (weighted_on im lab v one3); ratio (weighted_on im lab v px_y) (weighted_on im lab v one3)] ++
                            (if dd (sz im) >? 1 then [ratio (weighted_on im lab v px_z) (weighted_on im lab v one3)] else [])) onlyNonZero lab im WL) as (b & res & E1 & E2 & S1 & S2 & S3).
  - rewrite ES. exact W0.
  - rewrite ES. intros v seqs HF HK. apply blob_bary_ok; assumption.
  - exists b, res. split; [exact E1|]. split; [exact E2|]. split; [exact S1|]. split; [exact S2|]. intros v K1 K2 M. rewrite (S3 v K1 K2).
    assert (M' : ~ (inject_Z (weighted_on im lab v one3) == 0)%Q) by (intros E; apply M; exact (proj1 (inject_Z_injective _ 0) E)).
    eexists (inject_Z (weighted_on im lab v px_x) / inject_Z (weighted_on im lab v one3))%Q, (inject_Z (weighted_on im lab v px_y) / inject_Z (weighted_on im lab v one3))%Q, (inject_Z (weighted_on im lab v px_z) / inject_Z (weighted_on im lab v one3))%Q.
    unfold ratio. replace (weighted_on im lab v one3 =? 0) with false by lia. split; [reflexivity|]. repeat split; field; exact M'.
Qed.
Print Assumptions C126_weighted_partial.

(** From the labels alone: the barycentre of a nonzero label is the mean position of its pixels. *)
Lemma labels_raw onlyNonZero lab :
  wf_img lab -> 0 < dw (sz lab) -> Z.of_nat (length (pixs lab)) <= 2 ^ 64 -> exact_order1 lab ->
  exists res, blobsBarycenter_labels onlyNonZero lab = Some res /\ StronglySorted Z.lt (mkeys res) /\
    (forall v, In v (mkeys res) <-> label_kept onlyNonZero v = true /\ In v (pixs lab)) /\
    (forall v, label_kept onlyNonZero v = true -> In v (pixs lab) -> mfind v res = Some ([ratio (v * total_on lab v px_x) (v * total_on lab v one3); ratio (v * total_on lab v px_y) (v * total_on lab v one3)] ++
                            (if dd (sz lab) >? 1 then [ratio (v * total_on lab v px_z) (v * total_on lab v one3)] else []))).
Proof.
  intros W W0 BL B.
  destruct (process_blobs_key blob_bary (fun v => [ratio (v * total_on lab v px_x) (v * total_on lab v one3); ratio (v * total_on lab v px_y) (v * total_on lab v one3)] ++
                            (if dd (sz lab) >? 1 then [ratio (v * total_on lab v px_z) (v * total_on lab v one3)] else [])) onlyNonZero lab lab W W0) as (b & res & E1 & E2 & S1 & S2 & S3).
  - intros v seqs HF HK. rewrite (blob_bary_ok lab lab v) by (try assumption; reflexivity). rewrite !weighted_own. reflexivity.
  - exists res. unfold blobsBarycenter_labels. rewrite E1. split; [exact E2|]. repeat split; try apply S2; assumption.
Qed.
Lemma label_count lab v : total_on lab v one3 = Z.of_nat (length (label_grid lab v)).
Proof. unfold total_on. induction (label_grid lab v) as [|((x & y) & z) l IH]; [reflexivity|]. cbn [map length]. rewrite Zsum_cons, IH. unfold one3. lia. Qed.
Lemma label_present lab v : wf_img lab -> In v (pixs lab) -> 0 < total_on lab v one3.
Proof.
  intros W H. rewrite label_count, label_grid_k, map_length by exact W. apply In_rd in H as (k & Rg & Hk).
  assert (I : In k (lab_k lab v)) by (apply filter_In; split; [apply zseq_In; lia|rewrite (znth_rd 0 _ _ _ Hk); apply Z.eqb_refl]). destruct (lab_k lab v); [contradiction|cbn [length]; lia].
Qed.

Theorem C126_labels_partial onlyNonZero lab :
  wf_img lab -> 0 < dw (sz lab) -> Z.of_nat (length (pixs lab)) <= 2 ^ 64 -> exact_order1 lab ->
  exists res, blobsBarycenter_labels onlyNonZero lab = Some res /\ StronglySorted Z.lt (mkeys res) /\
    (forall v, In v (mkeys res) <-> label_kept onlyNonZero v = true /\ In v (pixs lab)) /\
    (forall v, In v (pixs lab) -> v <> 0 ->
       let n := inject_Z (Z.of_nat (length (label_grid lab v))) in
       exists bx by_ bz, mfind v res = Some (Some bx :: Some by_ :: (if dd (sz lab) >? 1 then [Some bz] else [])) /\ (0 < n)%Q /\
         (bx * n == inject_Z (total_on lab v px_x))%Q /\ (by_ * n == inject_Z (total_on lab v px_y))%Q /\ (bz * n == inject_Z (total_on lab v px_z))%Q).
Proof.
  intros W W0 BL B. destruct (labels_raw onlyNonZero lab W W0 BL B) as (res & E & S1 & S2 & S3). exists res. split; [exact E|]. split; [exact S1|]. split; [exact S2|].
  intros v Hv Nz n. pose proof (label_present lab v W Hv) as P. assert (En : n = inject_Z (total_on lab v one3)) by (unfold n; rewrite label_count; reflexivity).
  assert (Pn : (0 < n)%Q) by (rewrite En; apply inj_pos; exact P). assert (K : label_kept onlyNonZero v = true) by (unfold label_kept; replace (v =? 0) with false by lia; reflexivity).
  rewrite (S3 v K Hv). assert (MZ : v * total_on lab v one3 <> 0) by (apply Z.neq_mul_0; lia). unfold ratio. replace (v * total_on lab v one3 =? 0) with false by lia.
  eexists _, _, (inject_Z (v * total_on lab v px_z) / inject_Z (v * total_on lab v one3))%Q. split; [reflexivity|]. split; [exact Pn|].
  assert (N1 : ~ (inject_Z v == 0)%Q) by (intros H; apply Nz; exact (proj1 (inject_Z_injective _ 0) H)). assert (N3 : total_on lab v one3 <> 0) by lia. assert (N2 : ~ (inject_Z (total_on lab v one3) == 0)%Q) by (intros H; apply N3; exact (proj1 (inject_Z_injective _ 0) H)).
  rewrite En, !inject_Z_mult. repeat split; field; split; assumption.
Qed.
Print Assumptions C126_labels_partial.

(** It lies between the extreme coordinates of the pixels of the label. *)
Lemma total_bounds lab v f lo hi : wf_img lab -> (forall x y z, pixel_is lab x y z v -> lo <= f x y z <= hi) -> lo * total_on lab v one3 <= total_on lab v f <= hi * total_on lab v one3.
Proof.
  intros W H. unfold total_on. assert (G : forall p, In p (label_grid lab v) -> let '(x, y, z) := p in lo <= f x y z <= hi).
  { intros ((x & y) & z) Hp. apply filter_In in Hp as (Hp & Hv). apply grid_In in Hp. destruct (LoopFacts.pixel_exists lab x y z W Hp) as (u & Hu). rewrite (value_pixel_is _ _ _ _ _ Hu) in Hv. apply H. replace v with u by lia. exact Hu. }
  induction (label_grid lab v) as [|((x & y) & z) l IH]; [cbn; lia|]. cbn [map]. rewrite !Zsum_cons. specialize (IH (fun p Hp => G p (or_intror Hp))). pose proof (G (x, y, z) (or_introl eq_refl)) as G1. cbn beta iota in G1. unfold one3 at 1 3. lia.
Qed.
Theorem C126_inside onlyNonZero lab v x0 x1 y0 y1 z0 z1 :
  wf_img lab -> 0 < dw (sz lab) -> Z.of_nat (length (pixs lab)) <= 2 ^ 64 -> exact_order1 lab -> In v (pixs lab) -> v <> 0 ->
  (forall x y z, pixel_is lab x y z v -> x0 <= x <= x1 /\ y0 <= y <= y1 /\ z0 <= z <= z1) ->
  exists res bx by_ bz, blobsBarycenter_labels onlyNonZero lab = Some res /\ mfind v res = Some (Some bx :: Some by_ :: (if dd (sz lab) >? 1 then [Some bz] else [])) /\
    (inject_Z x0 <= bx <= inject_Z x1)%Q /\ (inject_Z y0 <= by_ <= inject_Z y1)%Q /\ (inject_Z z0 <= bz <= inject_Z z1)%Q.
Proof.
  intros W W0 BL B Hv Nz H. destruct (C126_labels_partial onlyNonZero lab W W0 BL B) as (res & E & _ & _ & S). destruct (S v Hv Nz) as (bx & by_ & bz & F & P & Ex & Ey & Ez). exists res, bx, by_, bz. split; [exact E|]. split; [exact F|].
  assert (G : forall f lo hi q, (forall x y z, pixel_is lab x y z v -> lo <= f x y z <= hi) -> (q * inject_Z (Z.of_nat (length (label_grid lab v))) == inject_Z (total_on lab v f))%Q -> (inject_Z lo <= q <= inject_Z hi)%Q).
  { intros f lo hi q Hf Eq. pose proof (total_bounds lab v f lo hi W Hf) as (T1 & T2). rewrite label_count in T1, T2. rewrite Zle_Qle, inject_Z_mult, <- Eq in T1. rewrite Zle_Qle, inject_Z_mult, <- Eq in T2.
    split; [apply (Qmult_lt_0_le_reg_r _ _ _ P T1)|apply (Qmult_lt_0_le_reg_r _ _ _ P T2)]. }
  split; [apply (G px_x x0 x1 bx); [|exact Ex]|split; [apply (G px_y y0 y1 by_); [|exact Ey]|apply (G px_z z0 z1 bz); [|exact Ez]]]; intros x y z Hp; destruct (H x y z Hp) as (? & ? & ?); assumption.
Qed.
Print Assumptions C126_inside.

(** The label 0, when it is asked for, has no barycentre: every coordinate is 0 / 0, in every image with a null pixel. *)
Theorem C126_zero_refuted lab :
  wf_img lab -> 0 < dw (sz lab) -> Z.of_nat (length (pixs lab)) <= 2 ^ 64 -> exact_order1 lab -> In 0 (pixs lab) ->
  exists res l, blobsBarycenter_labels false lab = Some res /\ mfind 0 res = Some l /\ l <> [] /\ Forall (eq None) l.
Proof.
  intros W W0 BL B H. destruct (labels_raw false lab W W0 BL B) as (res & E & _ & _ & S). exists res. eexists. split; [exact E|]. split; [apply S; [reflexivity|exact H]|]. split; [discriminate|]. unfold ratio. cbn. destruct (dd (sz lab) >? 1); repeat constructor.
Qed.
Print Assumptions C126_zero_refuted.

(** A label in two pieces, one of two lines, and zeros. *)
Definition lab_case : img := Img (Dims 4 3 1) [0; 5; 5; 0; 2; 0; 5; 0; 2; 2; 0; 5].
Example C126_case :
  wf_img lab_case /\ exact_order1 lab_case /\
  option_map (fun r => (mkeys r, mfind 5 r)) (blobsBarycenter_labels true lab_case) = Some ([2; 5], Some [Some (inject_Z 40 / inject_Z 20)%Q; Some (inject_Z 15 / inject_Z 20)%Q]) /\
  option_map (fun r => mfind 0 r) (blobsBarycenter_labels false lab_case) = Some (Some [None; None]).
Proof. split; [split; [repeat split; cbn; lia|reflexivity]|]. split; [repeat split; vm_compute; discriminate|]. split; reflexivity. Qed.
