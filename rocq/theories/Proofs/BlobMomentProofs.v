(** Proofs about blobsMoments. *)
From Verif Require Export Proofs.BlobPositionProofs Model.BlobMoments Spec.BlobMomentSpec.
From Coq Require Import QArith.
Local Open Scope Z_scope.

Lemma under_length im lab v : length (pixs lab) = length (pixs im) -> length (pixs (under_label im lab v)) = length (pixs im).
Proof. intros E. cbn. rewrite map_length, combine_length. lia. Qed.
Lemma under_wf im lab v : length (pixs lab) = length (pixs im) -> wf_img im -> wf_img (under_label im lab v).
Proof. intros E W. split; [apply W|]. rewrite under_length by exact E. apply W. Qed.
Lemma combine_znth (a b : list Z) : forall k, length b = length a -> 0 <= k < Z.of_nat (length a) -> forall v, znth 0 (map (fun p => if snd p =? v then fst p else 0) (combine a b)) k = if znth 0 b k =? v then znth 0 a k else 0.
Proof.
  unfold znth, rd. intros k HL Hk v. replace (0 <=? k) with true by lia. assert (H : (Z.to_nat k < length a)%nat) by lia. clear Hk. revert b HL H. generalize (Z.to_nat k) as m. clear k.
  induction a as [|x a IH]; intros m [|y b] HL H; cbn in HL, H; try lia. destruct m as [|m]; [reflexivity|]. cbn [combine map nth_error]. apply IH; lia.
Qed.
Lemma under_at im lab v (f : Z -> Z -> Z -> Z) k : length (pixs lab) = length (pixs im) -> 0 <= k < Z.of_nat (length (pixs im)) ->
  at_k (under_label im lab v) f k = if znth 0 (pixs lab) k =? v then at_k im f k else 0.
Proof. intros E H. unfold at_k. cbn [pixs sz under_label]. rewrite combine_znth by assumption. destruct (znth 0 (pixs lab) k =? v); ring. Qed.
Lemma sum_if (g h : Z -> Z) (p : Z -> bool) (l : list Z) : (forall k, In k l -> h k = if p k then g k else 0) -> Zsum (map g (filter p l)) = Zsum (map h l).
Proof.
  induction l as [|a l IH]; intros H; [reflexivity|]. cbn [filter map]. rewrite Zsum_cons, (H a (or_introl eq_refl)). specialize (IH (fun k Hk => H k (or_intror Hk))). destruct (p a); cbn [map]; rewrite ?Zsum_cons; lia.
Qed.
Lemma under_weighted im lab v f : wf_img im -> wf_img lab -> sz lab = sz im -> weighted_on im lab v f = weighted (under_label im lab v) f.
Proof.
  intros W WL ES. assert (EL : length (pixs lab) = length (pixs im)) by (apply Nat2Z.inj; rewrite (proj2 W), (proj2 WL), ES; reflexivity).
  rewrite weighted_on_k, weighted_zseq by (try assumption; apply under_wf; assumption). rewrite under_length by exact EL. unfold lab_k. rewrite EL. apply sum_if. intros k Hk. apply zseq_In in Hk. apply under_at; assumption.
Qed.
Lemma under_bound im lab v f : wf_img im -> wf_img lab -> sz lab = sz im -> weight_bound im f -> weight_bound (under_label im lab v) f.
Proof.
  intros W WL ES B. assert (EL : length (pixs lab) = length (pixs im)) by (apply Nat2Z.inj; rewrite (proj2 W), (proj2 WL), ES; reflexivity).
  apply (bound_zseq im f W) in B. pose proof (under_wf im lab v EL W) as WU. unfold weight_bound. rewrite grid_zseq by apply WU. rewrite map_map. rewrite <- (proj2 WU), under_length by exact EL.
  rewrite (map_ext_in _ (fun k => Z.abs (at_k (under_label im lab v) f k))).
  2: { intros k Hk. apply zseq_In in Hk. rewrite value_k; [reflexivity|exact WU|]. rewrite <- (proj2 WU), under_length by exact EL. exact Hk. }
  eapply Z.le_trans; [|exact B]. rewrite <- (sum_if (fun k => Z.abs (at_k im f k)) (fun k => Z.abs (at_k (under_label im lab v) f k)) (fun k => znth 0 (pixs lab) k =? v)).
  - apply abs_filter. intros k. apply Z.abs_nonneg.
  - intros k Hk. apply zseq_In in Hk. rewrite under_at by assumption. destruct (znth 0 (pixs lab) k =? v); reflexivity.
Qed.

(** ** Sums over one blob *)
Lemma positions_on im lab v terms n (fs : list (Z -> Z -> Z -> Z)) seqs : wf_img im -> wf_img lab -> sz lab = sz im -> 0 < dw (sz im) -> Z.of_nat (length (pixs im)) <= 2 ^ 64 ->
  Forall (run_in_line (dw (sz im))) seqs -> run_pixels seqs = lab_k lab v ->
  Z.of_nat (length fs) = n -> (forall v x y z, terms v x y z = map (fun f => v * f x y z) fs) -> (forall f, In f fs -> weight_bound im f) ->
  process_blob_pos (proc_terms terms) (repeat 0 (Z.to_nat n)) seqs im = Some (map (weighted (under_label im lab v)) fs).
Proof.
  intros W WL ES W0 BL HF HK Ln Ht B.
  assert (EL : length (pixs lab) = length (pixs im)) by (apply Nat2Z.inj; rewrite (proj2 W), (proj2 WL), ES; reflexivity).
  rewrite process_blob_pos_fold; try assumption.
  2: { intros k Hk. rewrite HK in Hk. apply filter_In in Hk as (Hk & _). apply zseq_In in Hk. lia. }
  rewrite HK. set (T := fun k => terms (znth 0 (pixs im) k) (kx (sz im) k) (ky (sz im) k) (kz (sz im) k)).
  assert (LT : forall k, Z.of_nat (length (T k)) = n) by (intros k; unfold T; rewrite Ht, map_length; exact Ln).
  assert (Tj : forall j f k, rd fs j = Some f -> znth 0 (T k) j = at_k im f k) by (intros j f k H; apply znth_rd; unfold T; rewrite Ht, rd_map, H; reflexivity).
  destruct (fold_terms T n LT (lab_k lab v) (repeat 0 (Z.to_nat n))) as (s' & E & L & R).
  - rewrite repeat_length. lia.
  - intros j a Hj. pose proof (rd_Some_range _ _ _ Hj) as Rg. rewrite repeat_length in Rg. apply rd_In, repeat_spec in Hj. subst a.
    destruct (rd_in_range fs j) as (f & Ef); [lia|]. unfold abs_sum. rewrite (map_ext _ (fun k => Z.abs (at_k im f k))) by (intros k; rewrite (Tj j f k Ef); reflexivity).
    pose proof (bound_zseq im f W (B f (rd_In _ _ _ Ef))) as P. pose proof (abs_filter (fun k => Z.abs (at_k im f k)) (fun k => znth 0 (pixs lab) k =? v) (zseq (Z.of_nat (length (pixs im)))) (fun k => Z.abs_nonneg _)) as Q. unfold lab_k. rewrite EL. cbn [Z.abs]. lia.
  - unfold T in E. rewrite E. f_equal. apply list_ext_rd; [rewrite map_length; lia|]. intros j Hj. destruct (rd_in_range fs j) as (f & Ef); [lia|]. assert (R0 : rd (repeat 0 (Z.to_nat n)) j = Some 0) by (apply rd_repeat; lia).
    rewrite (R j 0 R0), rd_map, Ef. cbn [option_map]. f_equal. rewrite Z.add_0_l. unfold term_sum. rewrite (map_ext _ (at_k im f)) by (intros k; apply (Tj j f k Ef)). rewrite <- under_weighted by assumption. symmetry. apply weighted_on_k; assumption.
Qed.

Lemma blob_moments_ok im lab v seqs : wf_img im -> wf_img lab -> sz lab = sz im -> 0 < dw (sz im) -> Z.of_nat (length (pixs im)) <= 2 ^ 64 -> exact_order2 im ->
  Forall (run_in_line (dw (sz im))) seqs -> run_pixels seqs = lab_k lab v ->
  blob_moments seqs im = Some (moment_values (under_label im lab v)).
Proof.
  intros W WL ES W0 BL ((B1 & Bx & By & Bz) & Bxy & Bxz & Byz & Bxx & Byy & Bzz) HF HK. unfold blob_moments, moment_values. change (depth im) with (dd (sz im)). change (sz (under_label im lab v)) with (sz im). change (repeat 0 10) with (repeat 0 (Z.to_nat 10)).
  destruct (dd (sz im) >? 1) eqn:E.
  - rewrite (positions_on im lab v (moment_terms true) 10 [one3; px_x; px_y; times px_x px_y; times px_x px_x; times px_y px_y; px_z; times px_x px_z; times px_y px_z; times px_z px_z]); try assumption; [reflexivity|reflexivity| |].
    + intros u x y z. cbn [map]. unfold moment_terms, times, px_x, px_y, px_z, one3. cbn [app]. rewrite !Z.mul_1_r, !Z.mul_assoc. reflexivity.
    + intros f Hf. cbn in Hf. repeat (destruct Hf as [<-|Hf]; [assumption|]). destruct Hf.
  - set (zf := fun _ _ _ : Z => 0). rewrite (positions_on im lab v (moment_terms false) 10 [one3; px_x; px_y; times px_x px_y; times px_x px_x; times px_y px_y; zf; zf; zf; zf]); try assumption; [reflexivity|reflexivity| |].
    + intros u x y z. cbn [map]. unfold moment_terms, times, px_x, px_y, px_z, one3, zf. cbn [app]. rewrite !Z.mul_1_r, !Z.mul_assoc, Z.mul_0_r. reflexivity.
    + intros f Hf. cbn in Hf. repeat (destruct Hf as [<-|Hf]; [first [assumption|apply zero_bound]|]). destruct Hf.
Qed.

Lemma under_exact im lab v : wf_img im -> wf_img lab -> sz lab = sz im -> exact_order2 im -> exact_order2 (under_label im lab v).
Proof. intros W WL ES B. unfold exact_order2, exact_order1 in *. repeat match goal with H : _ /\ _ |- _ => destruct H end. repeat split; apply under_bound; assumption. Qed.

(** ** The map of the results *)
Lemma mfind_on_map {A C} (g : A -> C) v (m : zmap A) : mfind v (map (fun e => (fst e, g (snd e))) m) = option_map g (mfind v m).
Proof. induction m as [|[k a] m IH]; [reflexivity|]. cbn. destruct (v =? k); [reflexivity|exact IH]. Qed.
Lemma mkeys_on_map {A C} (g : A -> C) (m : zmap A) : mkeys (map (fun e => (fst e, g (snd e))) m) = mkeys m.
Proof. unfold mkeys. rewrite map_map. reflexivity. Qed.
