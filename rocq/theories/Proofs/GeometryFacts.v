From Verif Require Export Model.Geometry Proofs.PreludeFacts Proofs.IntsFacts.

Lemma zseq_succ n : 0 <= n -> zseq (n + 1) = zseq n ++ [n].
Proof.
  intros H. unfold zseq. replace (Z.to_nat (n + 1)) with (S (Z.to_nat n)) by lia.
  rewrite seq_S, map_app. cbn. repeat f_equal. lia.
Qed.

Lemma zseq_0 n : n <= 0 -> zseq n = [].
Proof. intros H. unfold zseq. replace (Z.to_nat n) with O by lia. reflexivity. Qed.

Lemma flat_map_const_length {A B} (f : A -> list B) l n :
  (forall a, In a l -> length (f a) = n) -> length (flat_map f l) = (length l * n)%nat.
Proof.
  induction l as [|a l IH]; intros H; cbn; [reflexivity|].
  rewrite app_length, (H a (or_introl eq_refl)), IH by (intros; apply H; right; auto). reflexivity.
Qed.

Lemma grid_length {A} (g : Z -> Z -> A) d h : 0 <= d -> 0 <= h ->
  Z.of_nat (length (flat_map (fun k => map (g k) (zseq h)) (zseq d))) = d * h.
Proof.
  intros Hd Hh.
  rewrite (flat_map_const_length _ _ (Z.to_nat h)).
  - rewrite zseq_length. nia.
  - intros. rewrite map_length, zseq_length. reflexivity.
Qed.

Lemma rd_grid {A} (g : Z -> Z -> A) d h k j : 0 <= k < d -> 0 <= j < h ->
  rd (flat_map (fun k => map (g k) (zseq h)) (zseq d)) (k * h + j) = Some (g k j).
Proof.
  intros Hk Hj. assert (0 <= d) as Hd by lia. revert k Hk. revert d Hd.
  apply (natlike_ind (fun d => forall k, 0 <= k < d ->
     rd (flat_map (fun k => map (g k) (zseq h)) (zseq d)) (k * h + j) = Some (g k j))).
  - intros; lia.
  - intros d Hd IH k Hk. rewrite <- Z.add_1_r. rewrite zseq_succ by lia.
    rewrite flat_map_app, rd_app. rewrite grid_length by lia. cbn [flat_map].
    rewrite app_nil_r.
    destruct (Z.eq_dec k d) as [->|N].
    + destruct (Z.ltb_spec (d * h + j) (d * h)); [lia|].
      rewrite rd_map. replace (d * h + j - d * h) with j by lia. rewrite rd_zseq by lia. reflexivity.
    + destruct (Z.ltb_spec (k * h + j) (d * h)); [|nia].
      apply IH. lia.
Qed.

Lemma restruct_lines_length s : 0 <= dh s -> 0 <= dd s ->
  Z.of_nat (length (restruct_lines s)) = lineCount s.
Proof. intros. unfold restruct_lines. rewrite grid_length by lia. reflexivity. Qed.

Lemma rd_restruct_lines s i : 0 <= dh s -> 0 <= i < lineCount s ->
  rd (restruct_lines s) i = Some (i * dw s).
Proof.
  intros Hh Hi. unfold lineCount in Hi.
  assert (0 < dh s) by (destruct (Z.eq_dec (dh s) 0) as [E|]; [rewrite E in *; lia|lia]).
  rewrite (Z.div_mod i (dh s)) by lia. rewrite (Z.mul_comm (dh s)).
  unfold restruct_lines. rewrite rd_grid.
  - f_equal. ring.
  - split; [apply Z.div_pos; lia| apply Z.div_lt_upper_bound; lia].
  - apply Z.mod_pos_bound; lia.
Qed.
