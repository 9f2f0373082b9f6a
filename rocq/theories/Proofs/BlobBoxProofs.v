(** Proofs about blobsBoundBox. *)
From Verif Require Export Proofs.BlobPositionProofs Model.BlobBoxes.
Local Open Scope Z_scope.

(** Runs within a line, whatever is done with each. *)
Lemma process_blob_pos_step {S} (proc : S -> list Z -> Z -> Z -> Z -> option S) (step : S -> Z -> option S) im seqs :
  wf_img im -> 0 < dw (sz im) -> Z.of_nat (length (pixs im)) <= 2 ^ 64 ->
  (forall s a n y z, 0 <= y < dh (sz im) -> 0 <= z < dd (sz im) -> 0 <= a -> 0 < n -> a + n <= dw (sz im) ->
     proc s (map (znth 0 (pixs im)) (zrange (voxel_offset (dw (sz im)) (dh (sz im)) a y z) n)) a y z =
     fold_opt step (zrange (voxel_offset (dw (sz im)) (dh (sz im)) a y z) n) s) ->
  Forall (run_in_line (dw (sz im))) seqs ->
  (forall k, In k (run_pixels seqs) -> 0 <= k < Z.of_nat (length (pixs im))) ->
  forall s, process_blob_pos proc s seqs im = fold_opt step (run_pixels seqs) s.
Proof.
  intros W W0 B HP HF. unfold process_blob_pos. induction HF as [|[a n] l [Hn HL] HF IH]; intros HR s; cbn [fold_opt run_pixels flat_map]; [reflexivity|].
  cbn [fst snd] in *. fold (run_pixels l) in *. cbn [run_pixels flat_map fst snd] in HR. fold (run_pixels l) in HR.
  assert (A1 : 0 <= a < Z.of_nat (length (pixs im))) by (apply HR; apply in_or_app; left; apply zrange_In; lia).
  assert (A2 : 0 <= a + n - 1 < Z.of_nat (length (pixs im))) by (apply HR; apply in_or_app; left; apply zrange_In; lia).
  pose proof (proj2 W) as EL. destruct W as (WD & _).
  rewrite coords_of_offset by (try exact WD; lia). cbn [option_bind]. rewrite (subarray_ok 0) by lia. cbn [option_bind].
  rewrite fold_opt_app.
  assert (A3 : 0 <= a < dw (sz im) * dh (sz im) * dd (sz im)) by lia.
  destruct (k_voxel (sz im) a WD A3) as (I & V).
  assert (E : proc s (map (znth 0 (pixs im)) (zrange a n)) (kx (sz im) a) (ky (sz im) a) (kz (sz im) a) = fold_opt step (zrange a n) s).
  { unfold inside in I. rewrite <- V at 1 5.
    apply HP; try lia. unfold kx. pose proof (Z.div_mod a (dw (sz im))). pose proof (Z.div_mod (a + n - 1) (dw (sz im))). pose proof (Z.mod_pos_bound (a + n - 1) (dw (sz im))). nia. }
  rewrite E. destruct (fold_opt _ (zrange a n) s); cbn [option_bind]; [|reflexivity]. apply IH. intros k Hk. apply HR. apply in_or_app. right. exact Hk.
Qed.

Definition box_list (im3d : bool) (s : bbst) : list Z :=
  map (fun v => v mod 2 ^ 32) ([xMin s; yMin s] ++ (if im3d then [zMin s] else []) ++ [xMax s; yMax s] ++ (if im3d then [zMax s] else [])).
Definition box_fold (s : dims) (ks : list Z) : bbst := fold_left (bbk (dd s >? 1) s) ks (BB (dw s) 0 (dh s) 0 (dd s) 0).

Lemma blob_box_ok im lab v seqs : wf_img im -> wf_img lab -> sz lab = sz im -> 0 < dw (sz im) -> Z.of_nat (length (pixs im)) <= 2 ^ 64 ->
  Forall (run_in_line (dw (sz im))) seqs -> run_pixels seqs = lab_k lab v ->
  blob_box seqs im = Some (box_list (dd (sz im) >? 1) (box_fold (sz im) (lab_k lab v))).
Proof.
  intros W WL ES W0 B HF HK. unfold blob_box, width, height, depth.
  assert (EL : length (pixs lab) = length (pixs im)) by (apply Nat2Z.inj; rewrite (proj2 W), (proj2 WL), ES; reflexivity).
  rewrite (process_blob_pos_step _ (fun b k => Some (bbk (dd (sz im) >? 1) (sz im) b k))); try assumption.
  - rewrite HK, (fold_opt_total _ (bbk (dd (sz im) >? 1) (sz im))) by reflexivity. reflexivity.
  - intros s a n y z Hy Hz Ha Hn Han. rewrite (fold_opt_total _ (bbk (dd (sz im) >? 1) (sz im))) by reflexivity. f_equal.
    apply bb_step_fold; auto; [apply W|]. rewrite map_length, zrange_length. lia.
  - intros k Hk. rewrite HK in Hk. apply filter_In in Hk as (Hk & _). apply zseq_In in Hk. lia.
Qed.

Lemma lab_k_pixel lab v k : wf_img lab -> In k (lab_k lab v) -> pixel_is lab (kx (sz lab) k) (ky (sz lab) k) (kz (sz lab) k) v.
Proof.
  intros W H. apply filter_In in H as (H & E). apply zseq_In in H. destruct (pixel_is_k lab k W) as (P & _); [exact H|]. replace v with (znth 0 (pixs lab) k) by lia. exact P.
Qed.
Lemma pixel_lab_k lab v x y z : wf_img lab -> pixel_is lab x y z v -> exists k, In k (lab_k lab v) /\ kx (sz lab) k = x /\ ky (sz lab) k = y /\ kz (sz lab) k = z.
Proof.
  intros W (I & R). exists (voxel_offset (dw (sz lab)) (dh (sz lab)) x y z). split; [|apply k_coords; exact I].
  apply filter_In. split; [apply zseq_In; apply rd_Some_range in R; exact R|]. rewrite (znth_rd 0 _ _ _ R). apply Z.eqb_refl.
Qed.

Lemma box_of_label lab v : wf_img lab -> dw (sz lab) < 2 ^ 32 -> dh (sz lab) < 2 ^ 32 -> dd (sz lab) < 2 ^ 32 -> In v (pixs lab) ->
  exists x0 y0 z0 x1 y1 z1,
    box_list (dd (sz lab) >? 1) (box_fold (sz lab) (lab_k lab v)) = (if dd (sz lab) >? 1 then [x0; y0; z0; x1; y1; z1] else [x0; y0; x1; y1]) /\
    (forall x y z, pixel_is lab x y z v -> x0 <= x <= x1 /\ y0 <= y <= y1 /\ (1 < dd (sz lab) -> z0 <= z <= z1)) /\
    (exists y z, pixel_is lab x0 y z v) /\ (exists y z, pixel_is lab x1 y z v) /\
    (exists x z, pixel_is lab x y0 z v) /\ (exists x z, pixel_is lab x y1 z v) /\
    (1 < dd (sz lab) -> (exists x y, pixel_is lab x y z0 v) /\ (exists x y, pixel_is lab x y z1 v)).
Proof.
  intros W L1 L2 L3 Hv.
  assert (HI : forall x y z, pixel_is lab x y z v -> inside (sz lab) x y z) by (intros ? ? ? (I & _); exact I).
  unfold box_fold. destruct (bb_fold (dd (sz lab) >? 1) (sz lab) (lab_k lab v)) as [(E & _)|B].
  { intros k Hk. apply (HI _ _ _ (lab_k_pixel lab v k W Hk)). }
  { exfalso. apply In_rd in Hv as (k & Rg & Hk). assert (I : In k (lab_k lab v)) by (apply filter_In; split; [apply zseq_In; lia|rewrite (znth_rd 0 _ _ _ Hk); apply Z.eqb_refl]). rewrite E in I. exact I. }
  set (b := fold_left _ _ _) in *. clearbody b. destruct B as (B0 & B1 & B2 & B3 & B4 & B5).
  assert (C : forall (f : dims -> Z -> Z) m, (exists k, In k (lab_k lab v) /\ f (sz lab) k = m) ->
     exists k, pixel_is lab (kx (sz lab) k) (ky (sz lab) k) (kz (sz lab) k) v /\ f (sz lab) k = m).
  { intros f m (k & K1 & K2). exists k. split; [apply lab_k_pixel; assumption|exact K2]. }
  apply (C kx) in B1. apply (C kx) in B2. apply (C ky) in B3. apply (C ky) in B4.
  exists (xMin b), (yMin b), (zMin b), (xMax b), (yMax b), (zMax b).
  assert (M : forall v, 0 <= v < 2 ^ 32 -> v mod 2 ^ 32 = v) by (intros; apply Z.mod_small; lia).
  assert (R1 : 0 <= xMin b < dw (sz lab)) by (destruct B1 as (k & K1 & <-); apply (HI _ _ _ K1)).
  assert (R2 : 0 <= xMax b < dw (sz lab)) by (destruct B2 as (k & K1 & <-); apply (HI _ _ _ K1)).
  assert (R3 : 0 <= yMin b < dh (sz lab)) by (destruct B3 as (k & K1 & <-); apply (HI _ _ _ K1)).
  assert (R4 : 0 <= yMax b < dh (sz lab)) by (destruct B4 as (k & K1 & <-); apply (HI _ _ _ K1)).
  split; [|split; [|split; [|split; [|split; [|split]]]]].
  - unfold box_list. destruct (Z.gtb_spec (dd (sz lab)) 1); cbn [app map]; [|rewrite !M by lia; reflexivity].
    destruct (B5 eq_refl) as [B6 B7]. apply (C kz) in B6. apply (C kz) in B7.
    assert (R5 : 0 <= zMin b < dd (sz lab)) by (destruct B6 as (k & K1 & <-); apply (HI _ _ _ K1)).
    assert (R6 : 0 <= zMax b < dd (sz lab)) by (destruct B7 as (k & K1 & <-); apply (HI _ _ _ K1)).
    rewrite !M by lia. reflexivity.
  - intros x' y' z' H. destruct (pixel_lab_k lab v x' y' z' W H) as (k & Hk & <- & <- & <-).
    destruct (B0 k Hk) as (X & Y & Z0). split; [exact X|]. split; [exact Y|]. intros Hd. apply Z0. lia.
  - destruct B1 as (k & K1 & <-). eauto.
  - destruct B2 as (k & K1 & <-). eauto.
  - destruct B3 as (k & K1 & <-). eauto.
  - destruct B4 as (k & K1 & <-). eauto.
  - intros Hd. destruct B5 as [B6 B7]; [lia|]. apply (C kz) in B6. apply (C kz) in B7.
    destruct B6 as (k & K1 & <-), B7 as (k' & K1' & <-). split; eauto.
Qed.
