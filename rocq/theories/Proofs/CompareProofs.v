(** Similarity indices and the distances between two images. *)
From Coq Require Import Lqa.
From Verif Require Export Spec.CompareSpec.
From Verif Require Import Proofs.MeasureProofs Proofs.LabelUses2 Proofs.MorphProofs.
Local Open Scope Z_scope.

(** ** Counting *)
Definition cw (p : Z -> Z -> bool) (l1 l2 : list Z) : Z := Z.of_nat (length (filter (fun '(u, v) => p u v) (combine l1 l2))).
Lemma cw_cons p a l1 b l2 : cw p (a :: l1) (b :: l2) = (if p a b then 1 else 0) + cw p l1 l2.
Proof. unfold cw. cbn [combine filter]. destruct (p a b); cbn [length]; lia. Qed.
Lemma cw_nil p l2 : cw p [] l2 = 0. Proof. reflexivity. Qed.
Lemma cw_nonneg p l1 l2 : 0 <= cw p l1 l2. Proof. unfold cw. lia. Qed.
Lemma cw_map2 (f : Z -> Z -> Z) (p : Z -> bool) l1 : forall l2, Z.of_nat (length (filter p (map2 f l1 l2))) = cw (fun u v => p (f u v)) l1 l2.
Proof. induction l1 as [|a l1 IH]; intros [|b l2]; try reflexivity. cbn [map2 filter]. rewrite cw_cons, <- IH. destruct (p (f a b)); cbn [length]; lia. Qed.
Lemma cw_ext p q l1 : forall l2, (forall u v, In u l1 -> In v l2 -> p u v = q u v) -> cw p l1 l2 = cw q l1 l2.
Proof. induction l1 as [|a l1 IH]; intros [|b l2] H; try reflexivity. rewrite !cw_cons, H by (left; reflexivity). f_equal. apply IH. intros u v Hu Hv. apply H; right; assumption. Qed.
Lemma cw_first (p : Z -> bool) l1 : forall l2, length l1 = length l2 -> Z.of_nat (length (filter p l1)) = cw (fun u _ => p u) l1 l2.
Proof. induction l1 as [|a l1 IH]; intros [|b l2] H; try discriminate; [reflexivity|]. cbn [filter]. rewrite cw_cons, <- (IH l2) by (injection H; auto). destruct (p a); cbn [length]; lia. Qed.
Lemma cw_second (p : Z -> bool) l1 : forall l2, length l1 = length l2 -> Z.of_nat (length (filter p l2)) = cw (fun _ v => p v) l1 l2.
Proof. induction l1 as [|a l1 IH]; intros [|b l2] H; try discriminate; [reflexivity|]. cbn [filter]. rewrite cw_cons, <- (IH l2) by (injection H; auto). destruct (p b); cbn [length]; lia. Qed.
Lemma cw_or p q r l1 : (forall u v, r u v = p u v || q u v) -> (forall u v, p u v && q u v = false) -> forall l2, cw r l1 l2 = cw p l1 l2 + cw q l1 l2.
Proof. intros H D. induction l1 as [|a l1 IH]; intros [|b l2]; try reflexivity. rewrite !cw_cons, IH, H. specialize (D a b). destruct (p a b), (q a b); cbn [orb andb] in *; try discriminate; lia. Qed.
Lemma cw_all l1 : forall l2, length l1 = length l2 -> cw (fun _ _ => true) l1 l2 = Z.of_nat (length l1).
Proof. induction l1 as [|a l1 IH]; intros [|b l2] H; try discriminate; [reflexivity|]. rewrite cw_cons, IH by (injection H; auto). cbn [length]. lia. Qed.
Lemma cw_swap p l1 : forall l2, cw p l1 l2 = cw (fun v u => p u v) l2 l1.
Proof. induction l1 as [|a l1 IH]; intros [|b l2]; try reflexivity. rewrite !cw_cons, IH. reflexivity. Qed.
Lemma cw_zero p l1 : forall l2, length l1 = length l2 -> (cw p l1 l2 = 0 <-> forall k u v, rd l1 k = Some u -> rd l2 k = Some v -> p u v = false).
Proof.
  induction l1 as [|a l1 IH]; intros [|b l2] H; try discriminate.
  - split; [|reflexivity]. intros _ k u v R. unfold rd in R. destruct (0 <=? k); [|discriminate]. destruct (Z.to_nat k); discriminate.
  - rewrite cw_cons. pose proof (cw_nonneg p l1 l2) as N. injection H as H. specialize (IH l2 H). split.
    + intros E k u v Ru Rv. assert (E0 : p a b = false) by (destruct (p a b); lia). rewrite E0 in E. destruct (Z.eq_dec k 0) as [->|Hk]; [cbn in Ru, Rv; congruence|].
      apply (proj1 IH ltac:(lia) (k - 1)); unfold rd in *; destruct (Z.leb_spec 0 k); try discriminate; replace (0 <=? k - 1) with true by lia; replace (Z.to_nat k) with (S (Z.to_nat (k - 1))) in * by lia; assumption.
    + intros A. rewrite (A 0 a b eq_refl eq_refl). rewrite (proj2 IH); [lia|]. intros k u v Ru Rv. unfold rd in Ru, Rv. destruct (Z.leb_spec 0 k); try discriminate.
      apply (A (k + 1)); unfold rd; replace (0 <=? k + 1) with true by lia; replace (Z.to_nat (k + 1)) with (S (Z.to_nat k)) by lia; assumption.
Qed.
Lemma cw_triangle p q r l1 : (forall u v w, p u w = true -> q u v = true \/ r v w = true) -> forall l2 l3, length l1 = length l2 -> length l2 = length l3 -> cw p l1 l3 <= cw q l1 l2 + cw r l2 l3.
Proof.
  intros T. induction l1 as [|a l1 IH]; intros [|b l2] [|c l3] H1 H2; try discriminate H1; try discriminate H2; [cbn; lia|]. rewrite !cw_cons. injection H1 as H1. injection H2 as H2. specialize (IH l2 l3 H1 H2). specialize (T a b c).
  destruct (p a c), (q a b), (r b c); try lia; destruct (T eq_refl); discriminate.
Qed.

Section Call.
  Variables (t : ity) (gt im : img).
  Hypothesis C : cmp_call t gt im.

  Lemma cmp_len : length (pixs gt) = length (pixs im).
  Proof. destruct C as (_ & (_ & L1) & (_ & L2) & E & _). unfold pixelCount in *. rewrite E in L1. lia. Qed.
  Lemma cmp_same : same_size gt im = true.
  Proof. destruct C as (_ & _ & _ & E & _). apply same_size_true. exact E. Qed.
  Lemma cmp_nonneg v : In v (pixs gt) \/ In v (pixs im) -> 0 <= v.
  Proof. destruct C as (U & _ & _ & _ & T1 & T2 & _). unfold typed_img in *. rewrite Forall_forall in T1, T2. pose proof (tmin_unsigned t U) as Hm. intros [H|H]; [specialize (T1 v H)|specialize (T2 v H)]; unfold inty in *; lia. Qed.

  Lemma wf_pw2 f : wf_img (pw2 f gt im).
  Proof. destruct C as (_ & (D & L1) & _). split; [exact D|]. cbn [sz pixs pw2]. rewrite map2_length, <- cmp_len, Nat.min_id. exact L1. Qed.
  Lemma len_pw2 f : Z.of_nat (length (pixs (pw2 f gt im))) <= 2 ^ 53.
  Proof. destruct C as (_ & _ & _ & _ & _ & _ & H). cbn [pixs pw2]. rewrite map2_length, <- cmp_len, Nat.min_id. exact H. Qed.
  Lemma area_pw2 f : area (pw2 f gt im) = Some (count_where (fun u v => negb (f u v =? 0)) gt im).
  Proof. rewrite area_ok by (apply wf_pw2 || apply len_pw2). f_equal. cbn [pixs pw2]. apply (cw_map2 f (fun v => negb (v =? 0))). Qed.
  Lemma area_gt : area gt = Some (TP gt im + FN gt im).
  Proof.
    pose proof C as (_ & W & _ & _ & _ & _ & L). rewrite area_ok by assumption. f_equal. rewrite (cw_first _ _ (pixs im)) by apply cmp_len. unfold TP, FN, count_where. fold (cw (fun u v => negb (u =? 0) && negb (v =? 0)) (pixs gt) (pixs im)). fold (cw (fun u v => negb (u =? 0) && (v =? 0)) (pixs gt) (pixs im)).
    apply cw_or; intros u v; destruct (u =? 0), (v =? 0); reflexivity.
  Qed.
  Lemma area_im : area im = Some (TP gt im + FP gt im).
  Proof.
    pose proof C as (_ & _ & W & _ & _ & _ & L). rewrite cmp_len in L. rewrite area_ok by assumption. f_equal. rewrite (cw_second _ (pixs gt)) by apply cmp_len. unfold TP, FP, count_where. fold (cw (fun u v => negb (u =? 0) && negb (v =? 0)) (pixs gt) (pixs im)). fold (cw (fun u v => (u =? 0) && negb (v =? 0)) (pixs gt) (pixs im)).
    apply cw_or; intros u v; destruct (u =? 0), (v =? 0); reflexivity.
  Qed.
  Lemma area_inf : area (pw2 px_inf gt im) = Some (TP gt im).
  Proof.
    rewrite area_pw2. f_equal. apply (cw_ext _ _ (pixs gt) (pixs im)). intros u v Hu Hv. pose proof (cmp_nonneg u (or_introl Hu)). pose proof (cmp_nonneg v (or_intror Hv)). unfold px_inf.
    destruct (u <? v) eqn:E, (Z.eqb_spec u 0), (Z.eqb_spec v 0); cbn; lia.
  Qed.
  Lemma area_sup : area (pw2 px_sup gt im) = Some (TP gt im + FP gt im + FN gt im).
  Proof.
    rewrite area_pw2. f_equal. rewrite <- Z.add_assoc.
    assert (E1 : FP gt im + FN gt im = cw (fun u v => xorb (negb (u =? 0)) (negb (v =? 0))) (pixs gt) (pixs im)) by (symmetry; apply cw_or; intros u v; destruct (u =? 0), (v =? 0); reflexivity).
    assert (E2 : TP gt im + (FP gt im + FN gt im) = cw (fun u v => negb (u =? 0) || negb (v =? 0)) (pixs gt) (pixs im)) by (rewrite E1; symmetry; apply cw_or; intros u v; destruct (u =? 0), (v =? 0); reflexivity).
    rewrite E2.
    apply (cw_ext _ _ (pixs gt) (pixs im)). intros u v Hu Hv. pose proof (cmp_nonneg u (or_introl Hu)). pose proof (cmp_nonneg v (or_intror Hv)). unfold px_sup.
    destruct (u >? v) eqn:E, (Z.eqb_spec u 0), (Z.eqb_spec v 0); cbn; lia.
  Qed.
  Lemma area_and : area (pw2 px_logicAnd gt im) = Some (TP gt im).
  Proof. rewrite area_pw2. f_equal. apply (cw_ext _ _ (pixs gt) (pixs im)). intros u v _ _. unfold px_logicAnd, nz, b2z. destruct (u =? 0), (v =? 0); reflexivity. Qed.
  Lemma area_or : area (pw2 px_logicOr gt im) = Some (TP gt im + FP gt im + FN gt im).
  Proof.
    rewrite <- area_sup, !area_pw2. f_equal. apply (cw_ext _ _ (pixs gt) (pixs im)). intros u v Hu Hv. pose proof (cmp_nonneg u (or_introl Hu)). pose proof (cmp_nonneg v (or_intror Hv)). unfold px_logicOr, px_sup, nz, b2z.
    destruct (u >? v) eqn:E, (Z.eqb_spec u 0), (Z.eqb_spec v 0); cbn; try reflexivity; lia.
  Qed.
  Lemma counts_total : pixelCount (sz gt) = TP gt im + FP gt im + FN gt im + TN gt im.
  Proof.
    pose proof C as (_ & (_ & L) & _). rewrite wf_count by (split; assumption || apply C). rewrite <- (cw_all (pixs gt) (pixs im) cmp_len). pose proof area_sup as E. rewrite area_pw2 in E. injection E as E. rewrite <- E. unfold count_where. fold (cw (fun u v => negb (px_sup u v =? 0)) (pixs gt) (pixs im)).
    unfold TN, count_where. fold (cw (fun u v => (u =? 0) && (v =? 0)) (pixs gt) (pixs im)).
    rewrite (cw_ext (fun u v => (u =? 0) && (v =? 0)) (fun u v => px_sup u v =? 0)); [apply cw_or; intros u v; destruct (px_sup u v =? 0); reflexivity|].
    intros u v Hu Hv. pose proof (cmp_nonneg u (or_introl Hu)). pose proof (cmp_nonneg v (or_intror Hv)). unfold px_sup. destruct (u >? v) eqn:G, (Z.eqb_spec u 0), (Z.eqb_spec v 0); cbn; lia.
  Qed.
  Lemma TP_0 : 0 <= TP gt im. Proof. apply cw_nonneg. Qed.
  Lemma FP_0 : 0 <= FP gt im. Proof. apply cw_nonneg. Qed.
  Lemma FN_0 : 0 <= FN gt im. Proof. apply cw_nonneg. Qed.
  Lemma TN_0 : 0 <= TN gt im. Proof. apply cw_nonneg. Qed.
  Lemma counts_bound : TP gt im + FP gt im + FN gt im + TN gt im <= 2 ^ 53.
  Proof. rewrite <- counts_total. pose proof C as (_ & W & _ & _ & _ & _ & H). rewrite wf_count by exact W. exact H. Qed.
End Call.

Lemma binary_test im : binary im <-> isBinary im = true.
Proof. symmetry. apply isBinary_iff. Qed.

Theorem indices t gt im : cmp_call t gt im -> binary gt -> binary im ->
  indexJaccard gt im = Some (share (TP gt im) (TP gt im + FP gt im + FN gt im)) /\
  indexPrecision gt im = Some (share (TP gt im) (TP gt im + FP gt im)) /\
  indexSensitivity gt im = Some (share (TP gt im) (TP gt im + FN gt im)) /\
  indexRecall gt im = Some (share (TP gt im) (TP gt im + FN gt im)) /\
  indexSpecificity gt im = Some (share (TN gt im) (TN gt im + FP gt im)) /\
  indexFallOut gt im = Some (share (FP gt im) (TN gt im + FP gt im)) /\
  indexMissRate gt im = Some (share (FN gt im) (TP gt im + FN gt im)) /\
  indexOverlap gt im = Some (share (TP gt im) (TP gt im + Z.min (FN gt im) (FP gt im))).
Proof.
  intros C B1 B2. apply binary_test in B1, B2. pose proof (cmp_same _ _ _ C) as S. pose proof (area_inf _ _ _ C) as Ei. pose proof (area_sup _ _ _ C) as Es. pose proof (area_gt _ _ _ C) as Eg. pose proof (area_im _ _ _ C) as Em.
  pose proof (TP_0 gt im). pose proof (FP_0 gt im). pose proof (FN_0 gt im). pose proof (TN_0 gt im). pose proof (counts_bound _ _ _ C) as Hb. pose proof (counts_total _ _ _ C) as Ht.
  assert (P : 2 ^ 53 < 2 ^ 64) by reflexivity.
  unfold indexJaccard, indexPrecision, indexRecall, indexSensitivity, indexSpecificity, indexFallOut, indexMissRate, indexOverlap, on_binary, on_same_size. rewrite S, B1, B2. cbn [negb orb andb].
  rewrite (area_and _ _ _ C), (area_or _ _ _ C), Ei, Es, Eg, Em. cbn [option_bind]. unfold ratio, share.
  repeat split; f_equal; f_equal; f_equal; f_equal; rewrite ?Ht; try (rewrite !Z.mod_small by (rewrite ?Z.mod_small by lia; lia); lia); lia.
Qed.

Lemma tmax_pos t : 127 <= tmax t. Proof. destruct t; vm_compute; discriminate. Qed.

(** ** Quotients *)
Lemma half_pos b : 0 <= b -> (0 < inject_Z b + (1 # 2))%Q.
Proof. intros H. assert (0 <= inject_Z b)%Q by (change 0%Q with (inject_Z 0); rewrite <- Zle_Qle; exact H). lra. Qed.
Lemma share_pos a b : 0 <= a -> 0 <= b -> (0 < share a b)%Q.
Proof. intros Ha Hb. unfold share. apply Qlt_shift_div_l; [apply half_pos; exact Hb|]. pose proof (half_pos a Ha). lra. Qed.
Lemma share_le1 a b : 0 <= b -> a <= b -> (share a b <= 1)%Q.
Proof. intros Hb H. unfold share. apply Qle_shift_div_r; [apply half_pos; exact Hb|]. rewrite Zle_Qle in H. lra. Qed.
Lemma share_one a b : 0 <= b -> (share a b == 1)%Q <-> a = b.
Proof.
  intros Hb. pose proof (half_pos b Hb) as P. split.
  - intros E. assert (K : (inject_Z a + (1 # 2) == inject_Z b + (1 # 2))%Q). { rewrite <- (Qmult_div_r (inject_Z a + (1 # 2)) (inject_Z b + (1 # 2))) by lra. fold (share a b). rewrite E. ring. } assert (inject_Z a == inject_Z b)%Q by lra. unfold Qeq in H. cbn in H. lia.
  - intros ->. unfold share. apply Qdiv_mult_l || (field; lra).
Qed.
Lemma share_anti a b c : 0 <= a -> 0 <= b -> b <= c -> (share a c <= share a b)%Q.
Proof.
  intros Ha Hb H. pose proof (half_pos a Ha) as P. pose proof (half_pos b Hb) as P1. pose proof (half_pos c ltac:(lia)) as P2. unfold share. apply Qle_shift_div_l; [exact P1|]. rewrite Zle_Qle in H.
  setoid_replace ((inject_Z a + (1 # 2)) / (inject_Z c + (1 # 2)) * (inject_Z b + (1 # 2)))%Q with ((inject_Z a + (1 # 2)) * ((inject_Z b + (1 # 2)) / (inject_Z c + (1 # 2))))%Q by (field; lra).
  rewrite <- (Qmult_1_r (inject_Z a + (1 # 2))) at 2. apply Qmult_le_l; [exact P|]. apply Qle_shift_div_r; [exact P2|]. lra.
Qed.

Lemma cmp_sym t gt im : cmp_call t gt im -> cmp_call t im gt.
Proof. intros C. pose proof (cmp_len _ _ _ C) as L. destruct C as (A & B & D & E & F & G & H). repeat (split; [auto|]). rewrite <- L. exact H. Qed.
Lemma TP_sym gt im : TP im gt = TP gt im.
Proof. unfold TP, count_where. fold (cw (fun u v => negb (u =? 0) && negb (v =? 0)) (pixs im) (pixs gt)). rewrite cw_swap. apply cw_ext. intros u v _ _. apply andb_comm. Qed.
Lemma FP_sym gt im : FP im gt = FN gt im.
Proof. unfold FP, FN, count_where. fold (cw (fun u v => (u =? 0) && negb (v =? 0)) (pixs im) (pixs gt)). rewrite cw_swap. apply cw_ext. intros u v _ _. apply andb_comm. Qed.
Lemma FN_sym gt im : FN im gt = FP gt im. Proof. symmetry. apply FP_sym. Qed.

(** Nothing wrong. *)
Lemma no_fault t gt im : cmp_call t gt im -> FP gt im + FN gt im = 0 <-> forall x y z u v, pixel_is gt x y z u -> pixel_is im x y z v -> (u = 0 <-> v = 0).
Proof.
  intros C. pose proof (cmp_len _ _ _ C) as L. pose proof (FP_0 gt im). pose proof (FN_0 gt im). pose proof (cw_zero (fun u v => (u =? 0) && negb (v =? 0)) (pixs gt) (pixs im) L) as Z1. pose proof (cw_zero (fun u v => negb (u =? 0) && (v =? 0)) (pixs gt) (pixs im) L) as Z2.
  change (cw _ _ _) with (FP gt im) in Z1. change (cw _ _ _) with (FN gt im) in Z2. pose proof C as (_ & W1 & W2 & E & _). split.
  - intros S x y z u v (I & Ru) (_ & Rv). rewrite <- E in Rv. pose proof (proj1 Z1 ltac:(lia) _ _ _ Ru Rv) as K1. pose proof (proj1 Z2 ltac:(lia) _ _ _ Ru Rv) as K2. destruct (Z.eqb_spec u 0), (Z.eqb_spec v 0); cbn in K1, K2; try discriminate; split; intros; auto; lia.
  - intros A. assert (B : forall k u v, rd (pixs gt) k = Some u -> rd (pixs im) k = Some v -> (u = 0 <-> v = 0)).
    { intros k u v Ru Rv. pose proof (rd_Some_range _ _ _ Ru) as Rg. destruct W1 as (Wd & Wl); rewrite Wl in Rg; destruct (LoopFacts.voxel_surj (sz gt) k Wd Rg) as (x & y & z & I & Ek). apply (A x y z); split; [exact I|rewrite <- Ek; exact Ru|rewrite <- E; exact I|rewrite <- E, <- Ek; exact Rv]. }
    rewrite (proj2 Z1), (proj2 Z2); [reflexivity| |]; intros k u v Ru Rv; specialize (B k u v Ru Rv); destruct (Z.eqb_spec u 0), (Z.eqb_spec v 0); cbn; try reflexivity; lia.
Qed.

Theorem jaccard_range t gt im : cmp_call t gt im -> binary gt -> binary im ->
  exists q, indexJaccard gt im = Some q /\ indexJaccard im gt = Some q /\ (0 < q <= 1)%Q /\ ((q == 1)%Q <-> forall x y z u v, pixel_is gt x y z u -> pixel_is im x y z v -> (u = 0 <-> v = 0)).
Proof.
  intros C B1 B2. pose proof (TP_0 gt im). pose proof (FP_0 gt im). pose proof (FN_0 gt im). eexists. split; [apply (indices t gt im C B1 B2)|]. split; [|split; [split; [apply share_pos; lia|apply share_le1; lia]|]].
  - rewrite (proj1 (indices t im gt (cmp_sym _ _ _ C) B2 B1)). rewrite (TP_sym gt im), (FP_sym gt im), (FN_sym gt im). replace (TP gt im + FN gt im + FP gt im) with (TP gt im + FP gt im + FN gt im) by lia. reflexivity.
  - rewrite share_one by lia. rewrite <- (no_fault t gt im C). lia.
Qed.

Theorem fscore t gt im beta : cmp_call t gt im -> binary gt -> binary im ->
  exists p r f, indexPrecision gt im = Some p /\ indexRecall gt im = Some r /\ indexFScore gt im beta = Some f /\
    (f * (beta * beta * p + r) == (1 + beta * beta) * p * r)%Q /\ (p <= r -> p <= f <= r)%Q /\ (r <= p -> r <= f <= p)%Q /\
    indexPrecision im gt = Some r /\ indexRecall im gt = Some p.
Proof.
  intros C B1 B2. destruct (indices t gt im C B1 B2) as (_ & E1 & _ & E2 & _). destruct (indices t im gt (cmp_sym _ _ _ C) B2 B1) as (_ & E3 & _ & E4 & _). pose proof (TP_0 gt im). pose proof (FP_0 gt im). pose proof (FN_0 gt im).
  rewrite (TP_sym gt im), (FP_sym gt im) in E3. rewrite (TP_sym gt im), (FN_sym gt im) in E4. pose proof (share_pos (TP gt im) (TP gt im + FP gt im) ltac:(lia) ltac:(lia)) as P1. pose proof (share_pos (TP gt im) (TP gt im + FN gt im) ltac:(lia) ltac:(lia)) as P2.
  set (p := share (TP gt im) (TP gt im + FP gt im)) in *. set (r := share (TP gt im) (TP gt im + FN gt im)) in *. exists p, r, (((1 + beta * beta) * (p * r)) / (beta * beta * p + r))%Q.
  split; [exact E1|]. split; [exact E2|]. split. { unfold indexFScore, on_binary, on_same_size. rewrite (cmp_same _ _ _ C). apply binary_test in B1, B2. rewrite B1, B2, E1, E2. reflexivity. }
  assert (Sq : (0 <= beta * beta)%Q) by nra. set (b2 := (beta * beta)%Q) in *. assert (Dn : (0 < b2 * p + r)%Q) by nra.
  split; [field; lra|]. split; [|split; [|split; [exact E3|exact E4]]]; intros Hle.
  - assert (K1 : (0 <= b2 * (p * (r - p)))%Q) by (apply Qmult_le_0_compat; [exact Sq|apply Qmult_le_0_compat; lra]). assert (K2 : (0 <= r * (r - p))%Q) by (apply Qmult_le_0_compat; lra).
    split; [apply Qle_shift_div_l; [exact Dn|]|apply Qle_shift_div_r; [exact Dn|]]; (match goal with |- (?a <= ?b)%Q => enough (0 <= b - a)%Q by lra end).
    + setoid_replace ((1 + b2) * (p * r) - p * (b2 * p + r))%Q with (b2 * (p * (r - p)))%Q by ring. exact K1.
    + setoid_replace (r * (b2 * p + r) - (1 + b2) * (p * r))%Q with (r * (r - p))%Q by ring. exact K2.
  - assert (K1 : (0 <= b2 * (p * (p - r)))%Q) by (apply Qmult_le_0_compat; [exact Sq|apply Qmult_le_0_compat; lra]). assert (K2 : (0 <= r * (p - r))%Q) by (apply Qmult_le_0_compat; lra).
    split; [apply Qle_shift_div_l; [exact Dn|]|apply Qle_shift_div_r; [exact Dn|]]; (match goal with |- (?a <= ?b)%Q => enough (0 <= b - a)%Q by lra end).
    + setoid_replace ((1 + b2) * (p * r) - r * (b2 * p + r))%Q with (r * (p - r))%Q by ring. exact K2.
    + setoid_replace (p * (b2 * p + r) - (1 + b2) * (p * r))%Q with (b2 * (p * (p - r)))%Q by ring. exact K1.
Qed.

Theorem overlap_max t gt im : cmp_call t gt im -> binary gt -> binary im ->
  exists o p r, indexOverlap gt im = Some o /\ indexPrecision gt im = Some p /\ indexRecall gt im = Some r /\ (p <= o <= 1)%Q /\ (r <= o)%Q /\ (o = p \/ o = r).
Proof.
  intros C B1 B2. destruct (indices t gt im C B1 B2) as (_ & E1 & _ & E2 & _ & _ & _ & E3). do 3 eexists. split; [exact E3|]. split; [exact E1|]. split; [exact E2|]. pose proof (TP_0 gt im). pose proof (FP_0 gt im). pose proof (FN_0 gt im).
  split; [split; [apply share_anti; lia|apply share_le1; lia]|]. split; [apply share_anti; lia|]. destruct (Z.le_ge_cases (FP gt im) (FN gt im)); [left|right]; do 2 f_equal; lia.
Qed.

Theorem accuracy_binary t c th gt im : cmp_call t gt im -> two_valued gt c -> two_valued im c ->
  indexAccuracy t th gt im = Some (inject_Z (TP gt im + TN gt im) / inject_Z (TP gt im + FP gt im + FN gt im + TN gt im))%Q.
Proof.
  intros C B1 B2. unfold indexAccuracy, on_same_size. rewrite (cmp_same _ _ _ C), (proj1 (binary_test gt)), (proj1 (binary_test im)) by (exists c; assumption). cbn [negb andb]. rewrite (area_pw2 _ _ _ C), (counts_total _ _ _ C). cbn [option_bind]. do 3 f_equal.
  unfold TP, TN, count_where. fold (cw (fun u v => negb (px_equ t u v =? 0)) (pixs gt) (pixs im)). fold (cw (fun u v => negb (u =? 0) && negb (v =? 0)) (pixs gt) (pixs im)). fold (cw (fun u v => (u =? 0) && (v =? 0)) (pixs gt) (pixs im)).
  rewrite <- (cw_or (fun u v => negb (u =? 0) && negb (v =? 0)) (fun u v => (u =? 0) && (v =? 0)) (fun u v => negb (xorb (u =? 0) (v =? 0)))) by (intros u v; destruct (u =? 0), (v =? 0); reflexivity).
  apply cw_ext. intros u v Hu Hv. destruct B1 as (Hc & _ & _ & V1). destruct B2 as (_ & _ & _ & V2). unfold px_equ. pose proof (tmax_pos t) as Hm. destruct (V1 u Hu) as [-> | ->], (V2 v Hv) as [-> | ->]; rewrite ?Z.eqb_refl; destruct (Z.eqb_spec c 0), (Z.eqb_spec (tmax t) 0), (Z.eqb_spec 0 c); cbn; try reflexivity; lia.
Qed.

Theorem accuracy_general t th gt im : cmp_call t gt im -> ~ (binary gt /\ binary im) ->
  indexAccuracy t th gt im = Some (inject_Z (count_where (fun u v => Z.abs (u - v) <=? th) gt im) / inject_Z (dw (sz gt) * dh (sz gt) * dd (sz gt)))%Q.
Proof.
  intros C NB. unfold indexAccuracy, on_same_size. rewrite (cmp_same _ _ _ C). cbn [negb]. assert (E : isBinary gt && isBinary im = false) by (apply not_true_is_false; intros H; apply andb_prop in H as (H1 & H2); apply NB; split; apply binary_test; assumption). rewrite E.
  pose proof C as (U & (Wd & W) & _ & _ & T1 & T2 & L). pose proof (wf_pw2 _ _ _ C (px_absDiff t)) as (D1 & D2). assert (Wp : wf_img (pw1 (fun v => px_test (px_grt t v th) 0 1) (pw2 (px_absDiff t) gt im))) by (split; [exact D1|cbn [pw1 pixs sz]; rewrite map_length; exact D2]). assert (Lp : Z.of_nat (length (pixs (pw1 (fun v => px_test (px_grt t v th) 0 1) (pw2 (px_absDiff t) gt im)))) <= 2 ^ 53) by (cbn [pw1 pixs]; rewrite map_length; apply (len_pw2 _ _ _ C)). rewrite (area_ok _ Wp Lp). cbn [option_bind].
  rewrite pixelCount_dims. replace (dw (sz gt) * (dh (sz gt) * dd (sz gt))) with (dw (sz gt) * dh (sz gt) * dd (sz gt)) by ring. f_equal. apply (f_equal (fun a => inject_Z a / inject_Z (dw (sz gt) * dh (sz gt) * dd (sz gt)))%Q). cbn [pw1 pw2 pixs]. unfold count_where. fold (cw (fun u v => Z.abs (u - v) <=? th) (pixs gt) (pixs im)).
  transitivity (cw (fun u v => negb (px_test (px_grt t (px_absDiff t u v) th) 0 1 =? 0)) (pixs gt) (pixs im)).
  - rewrite <- (cw_map2 (px_absDiff t) (fun w => negb (px_test (px_grt t w th) 0 1 =? 0))). f_equal. generalize (map2 (px_absDiff t) (pixs gt) (pixs im)). intros l. induction l as [|a l IH]; [reflexivity|]. cbn [map filter]. destruct (negb _); cbn [length]; congruence.
  - apply cw_ext. intros u v Hu Hv. unfold typed_img in *. rewrite Forall_forall in T1, T2. specialize (T1 u Hu). specialize (T2 v Hv). pose proof (tmin_unsigned t U) as Hm. pose proof (tmax_pos t) as Hp. unfold inty in *.
    assert (A : px_absDiff t u v = Z.abs (u - v)) by (unfold px_absDiff; destruct (u >? v) eqn:G; rewrite wrap_id by (unfold inty; lia); lia). rewrite A. unfold px_grt, px_test, nz. destruct (Z.leb_spec (Z.abs (u - v)) th) as [G|G].
    + replace (Z.abs (u - v) >? th) with false by lia. reflexivity.
    + replace (Z.abs (u - v) >? th) with true by lia. destruct (Z.eqb_spec (tmax t) 0); [lia|reflexivity].
Qed.

(** ** Ruzicka *)
Lemma sum_le l1 : forall l2, length l1 = length l2 -> (forall k u v, rd l1 k = Some u -> rd l2 k = Some v -> u <= v) -> Zsum l1 <= Zsum l2.
Proof.
  induction l1 as [|a l1 IH]; intros [|b l2] L H; try discriminate L; [lia|]. rewrite !Zsum_cons. pose proof (H 0 a b eq_refl eq_refl). injection L as L. specialize (IH l2 L). enough (Zsum l1 <= Zsum l2) by lia. apply IH. intros k u v Ru Rv. unfold rd in Ru, Rv. destruct (Z.leb_spec 0 k); try discriminate.
  apply (H (k + 1)); unfold rd; replace (0 <=? k + 1) with true by lia; replace (Z.to_nat (k + 1)) with (S (Z.to_nat k)) by lia; assumption.
Qed.
Lemma sums_inf_sup l1 : forall l2, length l1 = length l2 -> Zsum (map2 px_inf l1 l2) <= Zsum (map2 px_sup l1 l2) /\ (Zsum (map2 px_inf l1 l2) = Zsum (map2 px_sup l1 l2) <-> l1 = l2).
Proof.
  induction l1 as [|a l1 IH]; intros [|b l2] L; try discriminate L; [cbn; split; [lia|tauto]|]. injection L as L. destruct (IH l2 L) as (A & B). cbn [map2]. rewrite !Zsum_cons. unfold px_inf at 1 3, px_sup at 1 3. destruct (a <? b) eqn:E1, (a >? b) eqn:E2; try lia.
  - split; [lia|]. split; [lia|]. intros H. injection H as -> _. lia.
  - split; [lia|]. split; [lia|]. intros H. injection H as -> _. lia.
  - assert (a = b) as -> by lia. split; [lia|]. split; [intros H; f_equal; apply B; lia|intros H; injection H as H; apply B in H; lia].
Qed.
Lemma map2_comm f l1 : (forall a b, f a b = f b a) -> forall l2 : list Z, map2 f l1 l2 = map2 (B := Z) (C := Z) f l2 l1.
Proof. intros H. induction l1 as [|a l1 IH]; intros [|b l2]; try reflexivity. cbn [map2]. rewrite H, IH. reflexivity. Qed.

Lemma pw2_volume t f gt im : cmp_call t gt im -> (tmax t - tmin t) * (dw (sz gt) * dh (sz gt) * dd (sz gt)) <= 2 ^ 53 -> (forall a b, f a b = a \/ f a b = b) ->
  volume (pw2 f gt im) = Some (Zsum (map2 f (pixs gt) (pixs im))) /\ 0 <= Zsum (map2 f (pixs gt) (pixs im)).
Proof.
  intros C X Hf. pose proof C as (U & (_ & W) & _ & _ & T1 & T2 & _). pose proof (tmin_unsigned t U) as Hm. pose proof (cmp_len _ _ _ C) as L. unfold typed_img in *. rewrite Forall_forall in T1, T2.
  assert (B : forall w, In w (map2 f (pixs gt) (pixs im)) -> 0 <= w <= tmax t).
  { intros w Hw. apply In_rd in Hw as (k & _ & R). rewrite rd_map2 in R. destruct (rd (pixs gt) k) as [u|] eqn:Ru; [|discriminate]. destruct (rd (pixs im) k) as [v|] eqn:Rv; [|discriminate]. injection R as <-. apply rd_In in Ru, Rv. specialize (T1 u Ru). specialize (T2 v Rv). unfold inty in *. destruct (Hf u v) as [->| ->]; lia. }
  assert (Bd : forall l, (forall w, In w l -> 0 <= w <= tmax t) -> 0 <= Zsum l /\ Zsum (map Z.abs l) <= tmax t * Z.of_nat (length l)).
  { induction l as [|a l IH]; intros Hl; [cbn; lia|]. cbn [map]. rewrite !Zsum_cons. destruct (IH ltac:(intros w Hw; apply Hl; right; exact Hw)). specialize (Hl a ltac:(left; reflexivity)). cbn [length]. rewrite Nat2Z.inj_succ. lia. }
  destruct (Bd _ B) as (B1 & B2). split; [|exact B1]. rewrite volume_ok; [reflexivity|apply (wf_pw2 _ _ _ C)|]. cbn [pixs pw2]. rewrite map2_length, <- L, Nat.min_id, W in B2. rewrite Hm, Z.sub_0_r in X. lia.
Qed.

Theorem ruzicka t gt im : cmp_call t gt im -> (tmax t - tmin t) * (dw (sz gt) * dh (sz gt) * dd (sz gt)) <= 2 ^ 53 ->
  exists q, indexRuzicka gt im = Some q /\ indexRuzicka im gt = Some q /\ q = share (Zsum (map2 Z.min (pixs gt) (pixs im))) (Zsum (map2 Z.max (pixs gt) (pixs im))) /\ (0 < q <= 1)%Q /\ ((q == 1)%Q <-> gt = im).
Proof.
  intros C X. pose proof (cmp_sym _ _ _ C) as C'. pose proof C as (_ & _ & _ & Es & _). assert (Fi : forall a b, px_inf a b = a \/ px_inf a b = b) by (intros a b; unfold px_inf; destruct (a <? b); auto). assert (Fs : forall a b, px_sup a b = a \/ px_sup a b = b) by (intros a b; unfold px_sup; destruct (a >? b); auto).
  assert (Ki : forall l1 l2, map2 px_inf l1 l2 = map2 Z.min l1 l2). { induction l1 as [|a l1 IH]; intros [|b l2]; try reflexivity. cbn [map2]. rewrite IH. f_equal. unfold px_inf. destruct (a <? b) eqn:E; lia. }
  assert (Ks : forall l1 l2, map2 px_sup l1 l2 = map2 Z.max l1 l2). { induction l1 as [|a l1 IH]; intros [|b l2]; try reflexivity. cbn [map2]. rewrite IH. f_equal. unfold px_sup. destruct (a >? b) eqn:E; lia. }
  destruct (pw2_volume t px_inf gt im C X Fi) as (V1 & P1). destruct (pw2_volume t px_sup gt im C X Fs) as (V2 & P2). rewrite Es in X. destruct (pw2_volume t px_inf im gt C' X Fi) as (V3 & _). destruct (pw2_volume t px_sup im gt C' X Fs) as (V4 & _).
  destruct (sums_inf_sup _ _ (cmp_len _ _ _ C)) as (S1 & S2).
  eexists. unfold indexRuzicka, on_same_size. rewrite (cmp_same _ _ _ C), (cmp_same _ _ _ C'), V1, V2, V3, V4. cbn [negb option_bind]. split; [reflexivity|]. split.
  - rewrite !Ki, !Ks, (map2_comm Z.min (pixs im) Z.min_comm), (map2_comm Z.max (pixs im) Z.max_comm). reflexivity.
  - rewrite <- Ki, <- Ks. split; [reflexivity|]. fold (share (Zsum (map2 px_inf (pixs gt) (pixs im))) (Zsum (map2 px_sup (pixs gt) (pixs im)))). split; [split; [apply share_pos; lia|apply share_le1; lia]|]. rewrite share_one by lia. rewrite S2. split; [|intros ->; reflexivity].
    intros Ep. destruct gt, im. cbn in *. congruence.
Qed.

(** ** Hamming *)
Theorem hamming_counts t gt im : cmp_call t gt im -> distanceHamming t gt im = Some (count_where (fun u v => negb (u =? v)) gt im).
Proof.
  intros C. unfold distanceHamming. rewrite (cmp_same _ _ _ C). cbn [negb]. rewrite (area_pw2 _ _ _ C). f_equal. apply (cw_ext _ _ (pixs gt) (pixs im)). intros u v _ _. unfold px_diff. pose proof (tmax_pos t). destruct (u =? v); [reflexivity|]. destruct (Z.eqb_spec (tmax t) 0); [lia|reflexivity].
Qed.
Theorem hamming_metric t a b c : cmp_call t a b -> cmp_call t b c ->
  exists ab ba bc ac, distanceHamming t a b = Some ab /\ distanceHamming t b a = Some ba /\ distanceHamming t b c = Some bc /\ distanceHamming t a c = Some ac /\
    ba = ab /\ (ab = 0 <-> a = b) /\ 0 <= ac <= ab + bc.
Proof.
  intros C1 C2. assert (C3 : cmp_call t a c). { pose proof C1 as (U & A & _ & E1 & F & _ & N). pose proof C2 as (_ & _ & D & E2 & _ & G & _). repeat (split; [first [assumption|congruence]|]). exact N. }
  exists (cw (fun u v => negb (u =? v)) (pixs a) (pixs b)), (cw (fun u v => negb (u =? v)) (pixs b) (pixs a)), (cw (fun u v => negb (u =? v)) (pixs b) (pixs c)), (cw (fun u v => negb (u =? v)) (pixs a) (pixs c)).
  split; [apply hamming_counts; exact C1|]. split; [apply hamming_counts, cmp_sym; exact C1|]. split; [apply hamming_counts; exact C2|]. split; [apply hamming_counts; exact C3|]. split; [|split; [|split; [apply cw_nonneg|]]].
  - rewrite cw_swap. apply cw_ext. intros u v _ _. rewrite Z.eqb_sym. reflexivity.
  - rewrite cw_zero by apply (cmp_len _ _ _ C1). split.
    + intros H. assert (Ep : pixs a = pixs b). { apply list_ext_rd; [apply (cmp_len _ _ _ C1)|]. intros k Hk. pose proof (cmp_len _ _ _ C1) as L. pose proof (rd_znth 0 (pixs a) k ltac:(lia)) as Ra. pose proof (rd_znth 0 (pixs b) k ltac:(lia)) as Rb. specialize (H k _ _ Ra Rb). rewrite Ra, Rb. f_equal. destruct (Z.eqb_spec (znth 0 (pixs a) k) (znth 0 (pixs b) k)); [assumption|discriminate]. }
      pose proof C1 as (_ & _ & _ & Es & _). destruct a, b. cbn in *. congruence.
    + intros -> k u v Ru Rv. rewrite Ru in Rv. injection Rv as ->. rewrite Z.eqb_refl. reflexivity.
  - apply cw_triangle; [|apply (cmp_len _ _ _ C1)|apply (cmp_len _ _ _ C2)]. intros u v w H. destruct (Z.eqb_spec u v), (Z.eqb_spec v w), (Z.eqb_spec u w); cbn in *; auto; lia.
Qed.
