From Verif Require Export Spec.ImageSpec Proofs.GeometryFacts Proofs.GeometryProofs Proofs.ZMapFacts.

Lemma natlike_rect' (P : Z -> Prop) n : P 0 -> (forall k, 0 <= k -> P k -> P (k + 1)) -> 0 <= n -> P n.
Proof. intros H0 HS Hn. apply natlike_ind; auto. Qed.

Lemma zrange_In a n i : In i (zrange a n) <-> a <= i < a + n.
Proof.
  unfold zrange. rewrite in_map_iff. split.
  - intros (k & <- & H). apply zseq_In in H. lia.
  - intros H. exists (i - a). split; [lia|]. apply zseq_In. lia.
Qed.

Lemma zrange_0_zseq n : zrange 0 n = zseq n.
Proof. unfold zrange. rewrite <- (map_id (zseq n)) at 2. apply map_ext. intros; lia. Qed.

Lemma zrange_nil a n : n <= 0 -> zrange a n = [].
Proof. intros. unfold zrange. rewrite zseq_0 by assumption. reflexivity. Qed.

Lemma zrange_snoc a n : 0 <= n -> zrange a (n + 1) = zrange a n ++ [a + n].
Proof. intros. unfold zrange. rewrite zseq_succ by assumption. rewrite map_app. reflexivity. Qed.

Lemma zseq_cons n : 0 < n -> zseq n = 0 :: zrange 1 (n - 1).
Proof.
  intros H. unfold zrange, zseq. replace (Z.to_nat n) with (S (Z.to_nat (n - 1))) by lia.
  cbn [seq map]. f_equal. rewrite <- seq_shift, !map_map. apply map_ext. intros; lia.
Qed.

Lemma zrange_cons a n : 0 < n -> zrange a n = a :: zrange (a + 1) (n - 1).
Proof.
  intros H. unfold zrange at 1. rewrite zseq_cons by assumption. cbn [map]. f_equal; [lia|].
  unfold zrange. rewrite map_map. apply map_ext. intros; lia.
Qed.

Lemma zrange_length a n : length (zrange a n) = Z.to_nat n.
Proof. unfold zrange. rewrite map_length. apply zseq_length. Qed.

Lemma rd_zrange a n i : 0 <= i < n -> rd (zrange a n) i = Some (a + i).
Proof. intros. unfold zrange. rewrite rd_map, rd_zseq by assumption. reflexivity. Qed.

Lemma zrange_app a n m : 0 <= n -> 0 <= m -> zrange a (n + m) = zrange a n ++ zrange (a + n) m.
Proof.
  intros Hn. apply (natlike_rect' (fun m => zrange a (n + m) = zrange a n ++ zrange (a + n) m)).
  - rewrite Z.add_0_r, (zrange_nil _ 0), app_nil_r by lia. reflexivity.
  - intros k Hk IH. rewrite Z.add_assoc, zrange_snoc, IH, zrange_snoc by lia.
    rewrite <- app_assoc, Z.add_assoc. reflexivity.
Qed.

Lemma zrange_NoDup a n : NoDup (zrange a n).
Proof. apply FinFun.Injective_map_NoDup; [intros x y; lia|apply zseq_NoDup]. Qed.

Lemma zseq_mul n w : 0 <= n -> 0 <= w -> zseq (n * w) = flat_map (fun l => zrange (l * w) w) (zseq n).
Proof.
  intros Hn Hw. revert Hn.
  apply (natlike_rect' (fun n => zseq (n * w) = flat_map (fun l => zrange (l * w) w) (zseq n))).
  - rewrite !zseq_0 by lia. reflexivity.
  - intros k Hk IH. rewrite zseq_succ, flat_map_app, <- IH by assumption. cbn [flat_map]. rewrite app_nil_r.
    rewrite <- !zrange_0_zseq. replace ((k + 1) * w) with (k * w + w) by ring.
    rewrite zrange_app by nia. reflexivity.
Qed.

Lemma map_znth_zrange {A} (d : A) l a n : 0 <= a -> 0 <= n -> a + n <= Z.of_nat (length l) ->
  map (znth d l) (zrange a n) = firstn (Z.to_nat n) (skipn (Z.to_nat a) l).
Proof.
  intros Ha Hn HL. apply list_ext_rd.
  - rewrite map_length, zrange_length, firstn_length, skipn_length. lia.
  - intros i Hi. rewrite map_length, zrange_length in Hi.
    rewrite rd_map, rd_zrange by lia. cbn. rewrite rd_firstn.
    destruct (Z.ltb_spec i (Z.of_nat (Z.to_nat n))); [|lia]. rewrite rd_skipn by lia.
    rewrite (rd_znth d) by lia. repeat f_equal. lia.
Qed.

Lemma map_znth_zseq {A} (d : A) l : map (znth d l) (zseq (Z.of_nat (length l))) = l.
Proof.
  rewrite <- zrange_0_zseq, map_znth_zrange by lia. cbn. rewrite Nat2Z.id. apply firstn_all.
Qed.

Lemma subarray_ok {A} (d : A) l a n : 0 <= a -> 0 <= n -> a + n <= Z.of_nat (length l) ->
  subarray l a n = Some (map (znth d l) (zrange a n)).
Proof.
  intros. unfold subarray. rewrite map_znth_zrange by assumption.
  replace (_ && _) with true by lia. reflexivity.
Qed.

Lemma slice_access_wf s x y z : wf_dims s -> inside s x y z ->
  slice_access s x y z = Some (voxel_offset (dw s) (dh s) x y z).
Proof.
  intros (H1 & H2 & H3) (Hx & Hy & Hz). unfold slice_access, restruct_slices.
  rewrite rd_map, rd_zseq by assumption. cbn [option_map option_bind].
  unfold restruct_lines. rewrite rd_grid by assumption. cbn. f_equal. unfold voxel_offset. ring.
Qed.

(** Folds. *)
Lemma fold_opt_total {A B} (f : B -> A -> option B) (g : B -> A -> B) l b :
  (forall b a, In a l -> f b a = Some (g b a)) -> fold_opt f l b = Some (fold_left g l b).
Proof.
  revert b; induction l as [|a l IH]; intros b H; cbn; [reflexivity|].
  rewrite (H b a (or_introl eq_refl)). apply IH. intros; apply H; right; assumption.
Qed.

Lemma fold_opt_inv {A B} (I : list A -> B -> Prop) (f : B -> A -> option B) l b :
  I [] b ->
  (forall done a todo b, l = done ++ a :: todo -> I done b -> exists b', f b a = Some b' /\ I (done ++ [a]) b') ->
  exists b', fold_opt f l b = Some b' /\ I l b'.
Proof.
  intros H0 HS.
  assert (G : forall todo done b, l = done ++ todo -> I done b -> exists b', fold_opt f todo b = Some b' /\ I l b').
  { induction todo as [|a todo IH]; intros done b1 E HI; cbn.
    - exists b1. rewrite app_nil_r in E. subst. auto.
    - destruct (HS done a todo b1 E HI) as (b2 & -> & HI2).
      apply (IH (done ++ [a])); [rewrite <- app_assoc; exact E|exact HI2]. }
  exact (G l [] b eq_refl H0).
Qed.

Lemma fold_left_inv {A B} (I : list A -> B -> Prop) (f : B -> A -> B) l b :
  I [] b ->
  (forall done a todo b, l = done ++ a :: todo -> I done b -> I (done ++ [a]) (f b a)) ->
  I l (fold_left f l b).
Proof.
  intros H0 HS.
  destruct (fold_opt_inv I (fun b a => Some (f b a)) l b H0) as (b' & E & H).
  - intros done a todo b1 E HI. exists (f b1 a). split; [reflexivity|]. eapply HS; eauto.
  - rewrite (fold_opt_total _ f) in E by reflexivity. injection E as <-. exact H.
Qed.

Lemma fold_opt_flat_map {A B C} (f : C -> B -> option C) (g : A -> list B) l c :
  fold_opt f (flat_map g l) c = fold_opt (fun c a => fold_opt f (g a) c) l c.
Proof.
  revert c; induction l as [|a l IH]; intros c; cbn; [reflexivity|].
  rewrite fold_opt_app. destruct (fold_opt f (g a) c); cbn; auto.
Qed.

Lemma fold_opt_ext {A B} (f g : B -> A -> option B) l b :
  (forall b a, In a l -> f b a = g b a) -> fold_opt f l b = fold_opt g l b.
Proof.
  revert b; induction l as [|a l IH]; intros b H; cbn; [reflexivity|].
  rewrite (H b a (or_introl eq_refl)). destruct (g b a); [|reflexivity].
  apply IH. intros; apply H; right; assumption.
Qed.

Lemma fold_opt_map {A B C} (f : C -> B -> option C) (g : A -> B) l c :
  fold_opt f (map g l) c = fold_opt (fun c a => f c (g a)) l c.
Proof. revert c; induction l as [|a l IH]; intros c; cbn; [reflexivity|]. destruct (f c (g a)); auto. Qed.

Lemma fold_left_flat_map {A B C} (f : C -> B -> C) (g : A -> list B) l c :
  fold_left f (flat_map g l) c = fold_left (fun c a => fold_left f (g a) c) l c.
Proof. revert c; induction l as [|a l IH]; intros c; cbn; [reflexivity|]. rewrite fold_left_app. apply IH. Qed.

Lemma fold_left_map {A B C} (f : C -> B -> C) (g : A -> B) l c :
  fold_left f (map g l) c = fold_left (fun c a => f c (g a)) l c.
Proof. revert c; induction l as [|a l IH]; intros c; cbn; [reflexivity|]. apply IH. Qed.

Lemma fold_left_ext {A B} (f g : B -> A -> B) l b :
  (forall b a, In a l -> f b a = g b a) -> fold_left f l b = fold_left g l b.
Proof.
  revert b; induction l as [|a l IH]; intros b H; cbn; [reflexivity|].
  rewrite (H b a (or_introl eq_refl)). apply IH. intros; apply H; right; assumption.
Qed.

Lemma filter_map_comm {A B} (p : B -> bool) (f : A -> B) l :
  filter p (map f l) = map f (filter (fun a => p (f a)) l).
Proof. induction l as [|a l IH]; cbn; [reflexivity|]. destruct (p (f a)); cbn; rewrite IH; reflexivity. Qed.

Lemma filter_flat_map {A B} (p : B -> bool) (f : A -> list B) l :
  filter p (flat_map f l) = flat_map (fun a => filter p (f a)) l.
Proof. induction l as [|a l IH]; cbn; [reflexivity|]. rewrite filter_app, IH. reflexivity. Qed.

Lemma filter_all {A} (p : A -> bool) l : (forall a, In a l -> p a = true) -> filter p l = l.
Proof.
  induction l as [|a l IH]; intros H; cbn; [reflexivity|]. rewrite (H a (or_introl eq_refl)), IH; [reflexivity|].
  intros; apply H; right; assumption.
Qed.

Lemma filter_none {A} (p : A -> bool) l : (forall a, In a l -> p a = false) -> filter p l = [].
Proof.
  induction l as [|a l IH]; intros H; cbn; [reflexivity|]. rewrite (H a (or_introl eq_refl)). apply IH.
  intros; apply H; right; assumption.
Qed.

Lemma flat_map_ext_in {A B} (f g : A -> list B) l :
  (forall a, In a l -> f a = g a) -> flat_map f l = flat_map g l.
Proof.
  induction l as [|a l IH]; intros H; cbn; [reflexivity|].
  rewrite (H a (or_introl eq_refl)), IH; [reflexivity|]. intros; apply H; right; assumption.
Qed.

Lemma Zsum_cons a l : Zsum (a :: l) = a + Zsum l.
Proof. reflexivity. Qed.
Lemma Zsum_app l1 l2 : Zsum (l1 ++ l2) = Zsum l1 + Zsum l2.
Proof. induction l1 as [|a l IH]; cbn [app]; [reflexivity|]. rewrite !Zsum_cons. lia. Qed.
Lemma Zsum_nonneg l : Forall (fun v => 0 <= v) l -> 0 <= Zsum l.
Proof. induction 1; [cbn; lia|]. rewrite Zsum_cons. lia. Qed.
