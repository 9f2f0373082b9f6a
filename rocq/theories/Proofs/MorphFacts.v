From Verif Require Export Spec.MorphSpec Proofs.TransformProofs5.

(** Lines given by a function. *)
Definition ln (w : Z) (f : Z -> Z) : list Z := map f (zseq w).

Lemma ln_length w f : 0 <= w -> Z.of_nat (length (ln w f)) = w.
Proof. intros. unfold ln. rewrite map_length, zseq_length. lia. Qed.

Lemma rd_ln w f x : 0 <= x < w -> rd (ln w f) x = Some (f x).
Proof. intros. unfold ln. rewrite rd_map, rd_zseq by assumption. reflexivity. Qed.

Lemma ln_ext w f g : (forall x, 0 <= x < w -> f x = g x) -> ln w f = ln w g.
Proof. intros H. unfold ln. apply map_ext_in. intros x Hx. apply H. apply zseq_In. exact Hx. Qed.

Lemma ln_inj w f g x : ln w f = ln w g -> 0 <= x < w -> f x = g x.
Proof. intros E Hx. pose proof (rd_ln w f x Hx) as H. rewrite E, rd_ln in H by exact Hx. congruence. Qed.

Lemma line_is_ln w l (f : Z -> Z) : 0 <= w -> Z.of_nat (length l) = w -> (forall x, 0 <= x < w -> rd l x = Some (f x)) -> l = ln w f.
Proof.
  intros Hw HL H. apply list_ext_rd; [pose proof (ln_length w f Hw); lia|]. intros i Hi. rewrite HL in Hi.
  rewrite H, rd_ln by exact Hi. reflexivity.
Qed.

Lemma lineFn_ln op w f g : lineFn op (ln w f) (ln w g) = ln w (fun x => op (f x) (g x)).
Proof.
  unfold lineFn, ln. induction (zseq w) as [|a l IH]; [reflexivity|]. cbn. rewrite IH. reflexivity.
Qed.

Lemma shl_ln w f dx bv : 0 <= w < 2 ^ 63 -> - w <= dx <= w ->
  shl (ln w f) dx bv = Some (ln w (fun x => if (0 <=? x - dx) && (x - dx <? w) then f (x - dx) else bv)).
Proof.
  intros Hw Hdx. unfold shl. rewrite ln_length by lia.
  destruct (shiftLine_ok (ln w f) (ln w f) 0 dx w 0 bv) as (l' & E & HL & H); try (rewrite ln_length; lia); try lia.
  rewrite E. f_equal. apply line_is_ln; [lia|rewrite HL; apply ln_length; lia|]. intros x Hx. rewrite H.
  replace ((0 <=? x) && (x <? 0 + w)) with true by lia.
  replace (x - 0 - dx) with (x - dx) by lia. destruct (_ && _) eqn:B; [|reflexivity]. apply rd_ln. lia.
Qed.

Lemma mk_img_ext s f g : (forall x y z, inside s x y z -> f x y z = g x y z) -> mk_img s f = mk_img s g.
Proof.
  intros H. unfold mk_img. f_equal. apply map_ext_in. intros [[x y] z] Hi. apply grid_In in Hi. apply H. exact Hi.
Qed.

Lemma rd_mk s g x y z : wf_dims s -> inside s x y z -> rd (pixs (mk_img s g)) (voxel_offset (dw s) (dh s) x y z) = Some (g x y z).
Proof. intros. cbn. rewrite rd_map, rd_grid3 by assumption. reflexivity. Qed.

Lemma length_mk s g : wf_dims s -> Z.of_nat (length (pixs (mk_img s g))) = dw s * dh s * dd s.
Proof. intros H. apply (proj2 (mk_img_wf s g H)). Qed.

Lemma getLine_mk s F y z : wf_dims s -> 0 < dw s -> 0 <= y < dh s -> 0 <= z < dd s ->
  getLine s (pixs (mk_img s F)) y z = Some (ln (dw s) (fun x => F x y z)).
Proof.
  intros Hw H0 Hy Hz. unfold getLine. assert (inside s 0 y z) as Hi by (unfold inside; lia).
  rewrite slice_access_wf by assumption. cbn [option_bind].
  destruct (line_in_array s (dw s) y z Hi H0 ltac:(lia)) as (A1 & A2).
  rewrite (subarray_ok 0); [|lia|lia|rewrite length_mk by exact Hw; lia]. f_equal.
  apply line_is_ln; [lia|rewrite map_length, zrange_length; lia|]. intros x Hx.
  rewrite rd_map, rd_zrange by exact Hx. cbn [option_map]. rewrite line_cell by lia. f_equal.
  apply znth_rd. apply rd_mk; [exact Hw|unfold inside; lia].
Qed.

Definition setl (F : Z -> Z -> Z -> Z) (y z : Z) (f : Z -> Z) : Z -> Z -> Z -> Z :=
  fun x' y' z' => if (y' =? y) && (z' =? z) then f x' else F x' y' z'.

Lemma putLine_mk s F y z f : wf_dims s -> 0 < dw s -> 0 <= y < dh s -> 0 <= z < dd s ->
  putLine s (pixs (mk_img s F)) y z (ln (dw s) f) = Some (pixs (mk_img s (setl F y z f))).
Proof.
  intros Hw H0 Hy Hz. unfold putLine. assert (inside s 0 y z) as Hi by (unfold inside; lia).
  rewrite slice_access_wf by assumption. cbn [option_bind].
  destruct (line_in_array s (dw s) y z Hi H0 ltac:(lia)) as (A1 & A2).
  destruct (blit_ok (pixs (mk_img s F)) (voxel_offset (dw s) (dh s) 0 y z) (ln (dw s) f)) as (l' & E & HL & H).
  - lia.
  - rewrite ln_length, length_mk by (assumption || lia). lia.
  - rewrite E. f_equal. apply list_ext_rd.
    + pose proof (length_mk s F Hw). pose proof (length_mk s (setl F y z f) Hw). lia.
    + intros i Hi'. rewrite HL, length_mk in Hi' by exact Hw. destruct (voxel_surj s i Hw Hi') as (x' & y' & z' & Hin & ->).
      rewrite H, !rd_mk by assumption. rewrite ln_length by lia. unfold setl.
      destruct ((y' =? y) && (z' =? z)) eqn:B.
      * assert (y' = y /\ z' = z) as (-> & ->) by lia. destruct Hin as (Hx & _).
        rewrite <- (line_cell s y z x') by lia.
        replace (_ && _) with true by lia. replace (voxel_offset (dw s) (dh s) 0 y z + x' - voxel_offset (dw s) (dh s) 0 y z) with x' by lia.
        apply rd_ln. lia.
      * match goal with |- context [if ?c then rd _ _ else _] => destruct c eqn:C end; [|reflexivity]. exfalso.
        destruct (voxel_inj s x' y' z' (voxel_offset (dw s) (dh s) x' y' z' - voxel_offset (dw s) (dh s) 0 y z) y z) as (_ & -> & ->); auto.
        -- unfold inside. lia.
        -- rewrite <- (line_cell s y z) by lia. lia.
        -- lia.
Qed.

Lemma all_lines_In h d y z : In (y, z) (all_lines h d) <-> 0 <= y < h /\ 0 <= z < d.
Proof. apply In_lines. Qed.

Lemma NoDup_app' {A} (l1 l2 : list A) : NoDup l1 -> NoDup l2 -> (forall a, In a l1 -> ~ In a l2) -> NoDup (l1 ++ l2).
Proof.
  induction l1 as [|a l1 IH]; intros H1 H2 H; [exact H2|]. cbn. inversion H1; subst. constructor.
  - rewrite in_app_iff. intros [Ha|Ha]; [contradiction|]. apply (H a); cbn; auto.
  - apply IH; auto. intros b Hb. apply H. cbn. auto.
Qed.

Lemma NoDup_flat_map {A B} (f : A -> list B) l : NoDup l -> (forall a, In a l -> NoDup (f a)) ->
  (forall a b c, In a l -> In b l -> In c (f a) -> In c (f b) -> a = b) -> NoDup (flat_map f l).
Proof.
  induction l as [|a l IH]; intros Hn Hf Hd; [constructor|]. cbn. inversion Hn as [|? ? Hna Hnl]; subst.
  apply NoDup_app'.
  - apply Hf. cbn. auto.
  - apply IH; auto. { intros b Hb. apply Hf. cbn. auto. } intros b b' c Hb Hb'. apply Hd; cbn; auto.
  - intros c Hc Hc'. apply in_flat_map in Hc' as (b & Hb & Hc'). assert (a = b) by (apply (Hd a b c); cbn; auto). subst. contradiction.
Qed.

Lemma all_lines_NoDup h d : NoDup (all_lines h d).
Proof.
  unfold all_lines. apply NoDup_flat_map.
  - apply zseq_NoDup.
  - intros k _. apply FinFun.Injective_map_NoDup; [|apply zseq_NoDup]. intros a b E. congruence.
  - intros a b [y z] _ _ Ha Hb. apply in_map_iff in Ha as (? & E & _). apply in_map_iff in Hb as (? & E' & _). congruence.
Qed.

(** A loop over all the lines in which the iteration of a line reads, in the output image, that line only. *)
Lemma line_pass s body order F0 (Rf : Z -> Z -> Z -> Z) : Permutation order (all_lines (dh s) (dd s)) ->
  (forall F y z, 0 <= y < dh s -> 0 <= z < dd s -> (forall x, F x y z = F0 x y z) ->
     body (pixs (mk_img s F)) (y, z) = Some (pixs (mk_img s (setl F y z (fun x => Rf x y z))))) ->
  fold_opt body order (pixs (mk_img s F0)) = Some (pixs (mk_img s Rf)).
Proof.
  intros HP HB.
  assert (NoDup order) as HN by (apply (Permutation_NoDup (Permutation_sym HP)); apply all_lines_NoDup).
  destruct (fold_opt_inv (fun done px => exists F, px = pixs (mk_img s F) /\
     (forall x y z, In (y, z) done -> F x y z = Rf x y z) /\ (forall x y z, ~ In (y, z) done -> F x y z = F0 x y z)) body order
     (pixs (mk_img s F0))) as (px & E & F & -> & H1 & H2).
  - exists F0. split; [reflexivity|]. split; [intros ? ? ? []|auto].
  - intros done [y z] todo px El (F & -> & H1 & H2).
    assert (In (y, z) (all_lines (dh s) (dd s))) as Hin by (apply (Permutation_in _ HP); rewrite El; apply in_elt).
    apply all_lines_In in Hin as (Hy & Hz).
    assert (~ In (y, z) done) as Hnd.
    { rewrite El in HN. apply NoDup_remove_2 in HN. intros H. apply HN. apply in_app_iff. auto. }
    rewrite HB; auto. eexists. split; [reflexivity|]. eexists. split; [reflexivity|]. unfold setl. split.
    + intros x y' z' Hd. destruct (_ && _) eqn:B; [assert (y' = y /\ z' = z) as (-> & ->) by lia; reflexivity|].
      apply H1. apply in_app_iff in Hd as [Hd|[Hd|[]]]; [exact Hd|]. injection Hd as -> ->. lia.
    + intros x y' z' Hd. rewrite in_app_iff in Hd. destruct (_ && _) eqn:B.
      * assert (y' = y /\ z' = z) as (-> & ->) by lia. exfalso. apply Hd. cbn. auto.
      * apply H2. tauto.
  - rewrite E. f_equal. f_equal. apply mk_img_ext. intros x y z (Hx & Hy & Hz). apply H1.
    apply (Permutation_in _ (Permutation_sym HP)). apply all_lines_In. auto.
Qed.

(** The value of a function on the voxels of [s], [bv] elsewhere. *)
Definition insideb (s : dims) (x y z : Z) : bool :=
  (0 <=? x) && (x <? dw s) && (0 <=? y) && (y <? dh s) && (0 <=? z) && (z <? dd s).
Lemma insideb_spec s x y z : insideb s x y z = true <-> inside s x y z.
Proof. unfold insideb, inside. lia. Qed.
Definition bo (s : dims) (bv : Z) (F : Z -> Z -> Z -> Z) (x y z : Z) : Z := if insideb s x y z then F x y z else bv.

Lemma bo_in s bv F x y z : inside s x y z -> bo s bv F x y z = F x y z.
Proof. intros H. unfold bo. apply insideb_spec in H. rewrite H. reflexivity. Qed.
Lemma bo_out s bv F x y z : ~ inside s x y z -> bo s bv F x y z = bv.
Proof. intros H. unfold bo. destruct (insideb s x y z) eqn:E; [|reflexivity]. apply insideb_spec in E. contradiction. Qed.

Lemma bo_reads s bv F x y z v : wf_dims s -> (reads (mk_img s F) bv x y z v <-> v = bo s bv F x y z).
Proof.
  intros Hw. unfold reads. rewrite mk_img_is by exact Hw. cbn. unfold bo. destruct (insideb s x y z) eqn:E.
  - apply insideb_spec in E. tauto.
  - assert (~ inside s x y z) by (rewrite <- insideb_spec, E; discriminate). tauto.
Qed.

Lemma wf_mk_pxv im : wf_img im -> pixs im = pixs (mk_img (sz im) (pxv im)).
Proof. intros H. rewrite (img_mk im H) at 1. reflexivity. Qed.

Lemma oddb_odd n : oddb n = Z.odd n.
Proof.
  unfold oddb. rewrite Zodd_mod. pose proof (Z.mod_pos_bound n 2 ltac:(lia)).
  destruct (Z.le_gt_cases 0 n) as [L|L].
  - rewrite Z.rem_mod_nonneg by lia. destruct (Z.eqb_spec (n mod 2) 0), (Zeq_bool (n mod 2) 1) eqn:E; try reflexivity;
      try apply Zeq_is_eq_bool in E; try apply Zeq_bool_neq in E; lia.
  - replace n with (- (- n)) by lia. rewrite Z.rem_opp_l by lia. rewrite Z.rem_mod_nonneg by lia.
    rewrite <- Zodd_mod, Z.odd_opp, Zodd_mod.
    pose proof (Z.mod_pos_bound (- n) 2 ltac:(lia)).
    destruct (Z.eqb_spec (- ((- n) mod 2)) 0), (Zeq_bool ((- n) mod 2) 1) eqn:E; try reflexivity;
      try apply Zeq_is_eq_bool in E; try apply Zeq_bool_neq in E; lia.
Qed.
