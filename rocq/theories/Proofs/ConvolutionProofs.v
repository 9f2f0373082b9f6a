(** Proofs about convolutions: lines. *)
From Coq Require Import Setoid Lqa.
From Verif Require Export Proofs.MomentsProofs2 Proofs.LoopFacts Proofs.GeometryFacts Spec.ConvolutionSpec.
Local Open Scope Z_scope.

(** ** Integer parts *)
Lemma qtrunc_comp p q : (p == q)%Q -> qtrunc p = qtrunc q.
Proof.
  intros H. unfold qtrunc. assert (Qle_bool 0 p = Qle_bool 0 q) as -> by (apply eq_true_iff_eq; rewrite !Qle_bool_iff, H; reflexivity). rewrite (Qfloor_comp _ _ H). assert (- p == - q)%Q as E by (rewrite H; reflexivity). rewrite (Qfloor_comp _ _ E). reflexivity.
Qed.
Lemma qtrunc_part q : integer_part q (qtrunc q).
Proof.
  unfold qtrunc, integer_part. destruct (Qle_bool 0 q) eqn:E.
  - apply Qle_bool_iff in E. left. split; [exact E|]. split; [apply Qfloor_le|apply Qlt_floor].
  - right. assert (q < 0)%Q as L. { apply Qnot_le_lt. intros H. apply Qle_bool_iff in H. congruence. }
    pose proof (Qfloor_le (- q)) as A. pose proof (Qlt_floor (- q)) as B. rewrite inject_Z_plus in B. unfold Z.sub. rewrite inject_Z_plus, !inject_Z_opp. change (inject_Z 1) with 1%Q in *. repeat split; lra.
Qed.
Lemma part_bounds q v a b : integer_part q v -> (inject_Z a <= q)%Q -> (q <= inject_Z b)%Q -> a <= v <= b.
Proof.
  intros H Ha Hb. unfold integer_part, Z.sub in H. rewrite !inject_Z_plus in H. change (inject_Z 1) with 1%Q in H. change (inject_Z (- (1))) with (-1)%Q in H. split.
  - apply Z.lt_succ_r. unfold Z.succ. rewrite Zlt_Qlt. rewrite inject_Z_plus. change (inject_Z 1) with 1%Q. destruct H as [(A & B & C)|(A & B & C)]; lra.
  - apply Z.lt_succ_r. unfold Z.succ. rewrite Zlt_Qlt. rewrite inject_Z_plus. change (inject_Z 1) with 1%Q. destruct H as [(A & B & C)|(A & B & C)]; lra.
Qed.
Lemma part_mono q q' v v' : (q <= q')%Q -> integer_part q v -> integer_part q' v' -> v <= v'.
Proof.
  intros L H H'. unfold integer_part, Z.sub in H, H'. rewrite !inject_Z_plus in H, H'. change (inject_Z 1) with 1%Q in *. change (inject_Z (- (1))) with (-1)%Q in *.
  destruct H as [(A & B & C)|(A & B & C)], H' as [(A' & B' & C')|(A' & B' & C')]; try (exfalso; lra).
  - apply Z.lt_succ_r. unfold Z.succ. rewrite Zlt_Qlt. rewrite inject_Z_plus. change (inject_Z 1) with 1%Q. lra.
  - assert (v <= 0). { apply Z.lt_succ_r. unfold Z.succ. rewrite Zlt_Qlt. rewrite inject_Z_plus. change (inject_Z 1) with 1%Q. change (inject_Z 0) with 0%Q. lra. }
    assert (0 <= v'). { apply Z.lt_succ_r. unfold Z.succ. rewrite Zlt_Qlt. rewrite inject_Z_plus. change (inject_Z 1) with 1%Q. change (inject_Z 0) with 0%Q. lra. } lia.
  - apply Z.lt_succ_r. unfold Z.succ. rewrite Zlt_Qlt. rewrite inject_Z_plus. change (inject_Z 1) with 1%Q. lra.
Qed.
Lemma part_comp q q' v : (q == q')%Q -> integer_part q v -> integer_part q' v.
Proof. unfold integer_part. intros E H. rewrite <- E. exact H. Qed.
Lemma part_int c : integer_part (inject_Z c) c.
Proof.
  unfold integer_part, Z.sub. rewrite !inject_Z_plus. change (inject_Z 1) with 1%Q. change (inject_Z (- (1))) with (-1)%Q. destruct (Qlt_le_dec (inject_Z c) 0); [right|left]; repeat split; lra.
Qed.
Lemma part_unique q v v' : integer_part q v -> integer_part q v' -> v = v'.
Proof. intros H H'. apply Z.le_antisymm; eapply part_mono; eauto using Qle_refl. Qed.

(** ** Sums of rationals *)
Lemma qsum_cons a l : qsum (a :: l) = (a + qsum l)%Q.
Proof. reflexivity. Qed.
Lemma qsum_app l l' : (qsum (l ++ l') == qsum l + qsum l')%Q.
Proof. induction l as [|a l IH]; [cbn [app]; change (qsum []) with 0%Q; rewrite Qplus_0_l; reflexivity|]. cbn [app]. rewrite !qsum_cons, IH. lra. Qed.
Lemma qsum_ext {A} (f g : A -> Q) l : (forall a, In a l -> (f a == g a)%Q) -> (qsum (map f l) == qsum (map g l))%Q.
Proof. induction l as [|a l IH]; intros H; [reflexivity|]. cbn [map]. rewrite !qsum_cons, (H a (or_introl eq_refl)), IH; [reflexivity|]. intros b Hb. apply H. right. exact Hb. Qed.
Lemma qsum_le {A} (f g : A -> Q) l : (forall a, In a l -> (f a <= g a)%Q) -> (qsum (map f l) <= qsum (map g l))%Q.
Proof. induction l as [|a l IH]; intros H; [apply Qle_refl|]. cbn [map]. rewrite !qsum_cons. pose proof (H a (or_introl eq_refl)). specialize (IH (fun b Hb => H b (or_intror Hb))). lra. Qed.
Lemma qsum_scale {A} (f : A -> Q) c l : (qsum (map (fun a => f a * c)%Q l) == qsum (map f l) * c)%Q.
Proof. induction l as [|a l IH]; [cbn [map]; change (qsum []) with 0%Q; lra|]. cbn [map]. rewrite !qsum_cons, IH. lra. Qed.
Lemma qsum_nonneg {A} (f : A -> Q) l : (forall a, In a l -> (0 <= f a)%Q) -> (0 <= qsum (map f l))%Q.
Proof. induction l as [|a l IH]; intros H; [apply Qle_refl|]. cbn [map]. rewrite !qsum_cons. pose proof (H a (or_introl eq_refl)). specialize (IH (fun b Hb => H b (or_intror Hb))). lra. Qed.
Lemma qsum_pos {A} (f : A -> Q) l a : In a l -> (forall a, In a l -> (0 <= f a)%Q) -> (0 < f a)%Q -> (0 < qsum (map f l))%Q.
Proof.
  intros Hi H P. apply in_split in Hi as (l1 & l2 & ->). rewrite map_app, qsum_app. cbn [map]. rewrite qsum_cons.
  pose proof (qsum_nonneg f l1 (fun b Hb => H b (in_or_app _ _ _ (or_introl Hb)))). pose proof (qsum_nonneg f l2 (fun b Hb => H b (in_or_app l1 (a :: l2) b (or_intror (or_intror Hb))))). lra.
Qed.
Lemma qsum_rev l : (qsum (rev l) == qsum l)%Q.
Proof. induction l as [|a l IH]; [reflexivity|]. cbn [rev]. rewrite qsum_app, IH, !qsum_cons. change (qsum []) with 0%Q. lra. Qed.

Lemma rev_zrange a n : rev (zrange a n) = map (fun i => 2 * a + n - 1 - i) (zrange a n).
Proof.
  destruct (Z_le_gt_dec n 0) as [L|L]; [unfold zrange; rewrite zseq_nil by lia; reflexivity|].
  replace n with (Z.of_nat (Z.to_nat n)) by lia. clear L. revert a. induction (Z.to_nat n) as [|m IH]; intros a; [reflexivity|].
  rewrite Nat2Z.inj_succ, <- Z.add_1_r. rewrite zrange_snoc at 1 by lia. rewrite (zrange_cons a (Z.of_nat m + 1)) by lia. rewrite rev_app_distr. cbn [rev app map]. f_equal; [lia|].
  rewrite IH. unfold zrange. rewrite !map_map. replace (Z.of_nat m + 1 - 1) with (Z.of_nat m) by lia. apply map_ext. intros. lia.
Qed.

(** ** Windows *)
Lemma window_In r n x i : In i (window r n x) <-> - r <= i <= r /\ 0 <= x + i < n.
Proof. unfold window. rewrite filter_In, zrange_In. rewrite andb_true_iff, Z.leb_le, Z.ltb_lt. lia. Qed.
Lemma filter_none {A} (f : A -> bool) l : (forall a, In a l -> f a = false) -> filter f l = [].
Proof. induction l as [|a l IH]; intros H; [reflexivity|]. cbn. rewrite (H a (or_introl eq_refl)). apply IH. intros b Hb. apply H. right. exact Hb. Qed.
Lemma window_range r n x lo hi : - r <= lo -> lo <= hi + 1 -> hi <= r -> (forall i, - r <= i <= r -> (0 <= x + i < n <-> lo <= i <= hi)) -> window r n x = zrange lo (hi - lo + 1).
Proof.
  intros A B C H. unfold window. replace (2 * r + 1) with ((lo + r) + ((hi - lo + 1) + (r - hi))) by lia. rewrite (zrange_app (- r) (lo + r)) by lia. replace (- r + (lo + r)) with lo by lia. rewrite (zrange_app lo (hi - lo + 1)) by lia. rewrite !filter_app.
  rewrite (filter_none _ (zrange (- r) _)), (filter_none _ (zrange (lo + _) _)), app_nil_r.
  - cbn [app]. apply filter_all_in. intros i Hi. apply zrange_In in Hi. specialize (H i ltac:(lia)). lia.
  - intros i Hi. apply zrange_In in Hi. specialize (H i ltac:(lia)). lia.
  - intros i Hi. apply zrange_In in Hi. specialize (H i ltac:(lia)). lia.
Qed.

(** ** Kernels *)
Lemma rd_kat kernel j : 0 <= j < Z.of_nat (length kernel) -> rd kernel j = Some (kat kernel j).
Proof. intros H. unfold kat. destruct (rd_in_range kernel j H) as (k & E). rewrite E. f_equal. unfold rd in E. destruct (0 <=? j); [|discriminate]. symmetry. apply nth_error_nth. exact E. Qed.
Lemma kat_all kernel n : Z.of_nat (length kernel) = n -> map (kat kernel) (zseq n) = kernel.
Proof.
  intros <-. apply list_ext_rd; [rewrite map_length, zseq_length; lia|]. intros j Hj. rewrite map_length, zseq_length in Hj. rewrite rd_map, rd_zseq, rd_kat by lia. reflexivity.
Qed.
Lemma kat_nonneg kernel r j : averaging kernel r -> 0 <= j <= 2 * r -> (0 <= kat kernel j)%Q.
Proof. intros (H1 & H2 & H3 & _) H. apply H3. apply (rd_In kernel j). apply rd_kat. lia. Qed.

Lemma window_pos kernel r n x : averaging kernel r -> 0 <= x < n -> (0 < qsum (map (fun i => kat kernel (i + r)) (window r n x)))%Q.
Proof.
  intros K Hx. apply (qsum_pos _ _ 0).
  - apply window_In. destruct K; lia.
  - intros i Hi. apply window_In in Hi. apply (kat_nonneg kernel r); [exact K|lia].
  - rewrite Z.add_0_l. apply K.
Qed.
Lemma wmean_le kernel r n f g x : averaging kernel r -> 0 <= x < n -> (forall i, In i (window r n x) -> f (x + i)%Z <= g (x + i)%Z) -> (wmean kernel r n f x <= wmean kernel r n g x)%Q.
Proof.
  intros K Hx H. unfold wmean. pose proof (window_pos kernel r n x K Hx) as P. unfold Qdiv. apply Qmult_le_compat_r; [|apply Qinv_le_0_compat, Qlt_le_weak; exact P].
  apply qsum_le. intros i Hi. pose proof (H i Hi) as L. apply window_In in Hi. rewrite !(Qmult_comm (kat _ _)). apply Qmult_le_compat_r; [rewrite <- Zle_Qle; exact L|apply (kat_nonneg kernel r); [exact K|lia]].
Qed.
Lemma wmean_const kernel r n c x : averaging kernel r -> 0 <= x < n -> (wmean kernel r n (fun _ => c) x == inject_Z c)%Q.
Proof.
  intros K Hx. unfold wmean. pose proof (window_pos kernel r n x K Hx) as P. rewrite (qsum_scale (fun i => kat kernel (i + r))). unfold Qdiv. set (s := qsum _) in *. clearbody s. field. intros E. rewrite E in P. apply (Qlt_irrefl 0 P).
Qed.
Lemma wmean_ext kernel r n f g x : (forall i, In i (window r n x) -> f (x + i)%Z = g (x + i)%Z) -> (wmean kernel r n f x == wmean kernel r n g x)%Q.
Proof. intros H. unfold wmean. rewrite (qsum_ext _ (fun i => Qmult (kat kernel (i + r)) (inject_Z (g (x + i)%Z)))); [reflexivity|]. intros i Hi. rewrite (H i Hi). reflexivity. Qed.
Lemma wmean_bounds kernel r n f x a b : averaging kernel r -> 0 <= x < n -> (forall i, In i (window r n x) -> a <= f (x + i)%Z <= b) -> (inject_Z a <= wmean kernel r n f x)%Q /\ (wmean kernel r n f x <= inject_Z b)%Q.
Proof.
  intros K Hx H. split.
  - rewrite <- (wmean_const kernel r n a x K Hx). apply wmean_le; try assumption. intros i Hi. apply H. exact Hi.
  - rewrite <- (wmean_const kernel r n b x K Hx). apply wmean_le; try assumption. intros i Hi. apply H. exact Hi.
Qed.
Lemma mean_typed t kernel r n f x v : averaging kernel r -> 0 <= x < n -> (forall y, 0 <= y < n -> inty t (f y)) -> integer_part (wmean kernel r n f x) v -> inty t v.
Proof.
  intros K Hx H P. destruct (wmean_bounds kernel r n f x (tmin t) (tmax t) K Hx) as (A & B).
  - intros i Hi. apply window_In in Hi. apply (H (x + i)). lia.
  - apply (part_bounds _ _ _ _ P A B).
Qed.

Lemma intyb_true t v : inty t v -> intyb t v = true.
Proof. unfold inty, intyb. lia. Qed.
Lemma to_pixel_ok t kernel r n f x q : averaging kernel r -> 0 <= x < n -> (forall y, 0 <= y < n -> inty t (f y)) -> (q == wmean kernel r n f x)%Q -> to_pixel t q = Some (qtrunc (wmean kernel r n f x)).
Proof.
  intros K Hx H E. unfold to_pixel. rewrite (qtrunc_comp _ _ E). rewrite intyb_true; [reflexivity|]. apply (mean_typed t kernel r n f x); try assumption. apply qtrunc_part.
Qed.

(** ** The partial weights *)
Lemma rd_cons_pos {A} (a : A) l i : 0 < i -> rd (a :: l) i = rd l (i - 1).
Proof. intros H. change (a :: l) with ([a] ++ l). rewrite rd_app. cbn [length]. replace (i <? Z.of_nat 1) with false by lia. reflexivity. Qed.

Lemma pkw_loop_ok kernel r : forall m a s, 0 <= a -> 0 <= r -> a + Z.of_nat m + r <= Z.of_nat (length kernel) -> exists w, pkw_loop kernel r (zrange a (Z.of_nat m)) s = Some w /\ Z.of_nat (length w) = Z.of_nat m /\
  forall i, 0 <= i < Z.of_nat m -> exists q, rd w i = Some q /\ (q == s + qsum (map (kat kernel) (zrange (a + r) (i + 1))))%Q.
Proof.
  induction m as [|m IH]; intros a s Ha Hr Hl; [exists []; repeat split; intros; lia|].
  rewrite zrange_cons by lia. replace (Z.of_nat (S m) - 1) with (Z.of_nat m) by lia. cbn [pkw_loop]. rewrite rd_kat by lia. cbn [option_bind]. destruct (IH (a + 1) (s + kat kernel (a + r))%Q) as (w & E & Lw & Hw); [lia..|]. rewrite E. cbn [option_map]. eexists. split; [reflexivity|]. split; [cbn [length]; lia|].
  intros i Hi. destruct (Z.eq_dec i 0) as [->|N].
  - exists (s + kat kernel (a + r))%Q. split; [reflexivity|]. change (0 + 1) with 1. rewrite zrange_cons by lia. change (1 - 1) with 0. cbn [map]. rewrite qsum_cons. change (qsum _) with 0%Q. lra.
  - destruct (Hw (i - 1)) as (q & Eq & Hq); [lia|]. exists q. split; [rewrite <- Eq; apply (rd_cons_pos); lia|]. rewrite Hq. rewrite (zrange_cons (a + r)) by lia. cbn [map]. rewrite qsum_cons. replace (i - 1 + 1) with i by lia. replace (i + 1 - 1) with i by lia. replace (a + 1 + r) with (a + r + 1) by lia. lra.
Qed.
Lemma fold_kat kernel : forall l s, (forall j, In j l -> 0 <= j < Z.of_nat (length kernel)) -> exists q, fold_opt (fun s i => option_map (fun k => (s + k)%Q) (rd kernel i)) l s = Some q /\ (q == s + qsum (map (kat kernel) l))%Q.
Proof.
  induction l as [|j l IH]; intros s H; [exists s; cbn [map fold_opt]; change (qsum []) with 0%Q; split; [reflexivity|lra]|]. cbn [fold_opt map]. rewrite rd_kat by (apply H; left; reflexivity). cbn [option_map]. destruct (IH (s + kat kernel j)%Q) as (q & E & Hq); [intros i Hi; apply H; right; exact Hi|]. exists q. rewrite E. split; [reflexivity|]. rewrite Hq, qsum_cons. lra.
Qed.
Lemma pkw_ok kernel r : 0 <= r -> 2 * r <= Z.of_nat (length kernel) -> exists w, pkw kernel r = Some w /\
  forall i, 0 <= i < r -> exists q, rd w i = Some q /\ (q == qsum (map (kat kernel) (zrange 0 (r + i + 1))))%Q.
Proof.
  intros Hr Hl. unfold pkw. destruct (fold_kat kernel (zseq r) 0%Q) as (s & E & Hs); [intros j Hj; apply zseq_In in Hj; lia|]. rewrite E. cbn [option_bind].
  assert (Ez : zseq r = zrange 0 (Z.of_nat (Z.to_nat r))). { unfold zrange. rewrite (map_ext _ (fun k => k)), map_id by (intros; lia). f_equal. lia. }
  rewrite Ez. destruct (pkw_loop_ok kernel r (Z.to_nat r) 0 s) as (w & Ew & _ & Hw); [lia..|]. exists w. split; [exact Ew|]. intros i Hi. destruct (Hw i) as (q & Eq & Hq); [lia|]. exists q. split; [exact Eq|]. rewrite Hq, Hs. replace (r + i + 1) with (r + (i + 1)) by lia. rewrite (zrange_app 0 r (i + 1)), map_app, qsum_app by lia. rewrite Ez, Z2Nat.id, !Z.add_0_l by lia. lra.
Qed.

(** ** One tap *)
Lemma conv_sum_ok kernel r get f x lo hi : (forall i, lo <= i <= hi -> 0 <= i + r < Z.of_nat (length kernel) /\ get (x + i) = Some (f (x + i)%Z)) ->
  exists s, conv_sum kernel r get x lo hi = Some s /\ (s == qsum (map (fun i => Qmult (kat kernel (i + r)) (inject_Z (f (x + i)%Z))) (zrange lo (hi - lo + 1))))%Q.
Proof.
  intros H. unfold conv_sum. assert (G : forall l s, (forall i, In i l -> lo <= i <= hi) -> exists q, fold_opt (fun s i => option_bind (rd kernel (i + r)) (fun k => option_map (fun v => (s + k * inject_Z v)%Q) (get (x + i)))) l s = Some q /\ (q == s + qsum (map (fun i => Qmult (kat kernel (i + r)) (inject_Z (f (x + i)%Z))) l))%Q).
  { induction l as [|i l IH]; intros s Hl; [exists s; cbn [map fold_opt]; change (qsum []) with 0%Q; split; [reflexivity|lra]|]. cbn [fold_opt map]. destruct (H i) as (A & B); [apply Hl; left; reflexivity|]. rewrite rd_kat, B by exact A. cbn [option_bind option_map].
    destruct (IH (s + kat kernel (i + r) * inject_Z (f (x + i)%Z))%Q) as (q & E & Hq); [intros j Hj; apply Hl; right; exact Hj|]. exists q. rewrite E. split; [reflexivity|]. rewrite Hq, qsum_cons. lra. }
  destruct (G (zrange lo (hi - lo + 1)) 0%Q) as (q & E & Hq); [intros i Hi; apply zrange_In in Hi; lia|]. exists q. split; [exact E|]. rewrite Hq. lra.
Qed.

Lemma map_zrange_shift {A} (g : Z -> A) c a n : map (fun i => g (i + c)) (zrange a n) = map g (zrange (a + c) n).
Proof. unfold zrange. rewrite !map_map. apply map_ext. intros. f_equal. lia. Qed.
Lemma taps_In n r p : In p (taps n r) <-> (exists x, 0 <= x < r /\ p = (x, - x, r, Some x)) \/ (exists x, r <= x < n - r /\ p = (x, - r, r, None)) \/ (exists x, n - r <= x < n /\ p = (x, - r, n - x - 1, Some (n - 1 - x))).
Proof.
  unfold taps. rewrite !in_app_iff, !in_map_iff. split.
  - intros [(x & <- & H)|[(x & <- & H)|(x & <- & H)]]; [left|right; left|right; right]; exists x; (split; [|reflexivity]); [apply zseq_In in H|apply zrange_In in H|apply zrange_In in H]; lia.
  - intros [(x & H & ->)|[(x & H & ->)|(x & H & ->)]]; [left|right; left|right; right]; exists x; (split; [reflexivity|]); [apply zseq_In|apply zrange_In|apply zrange_In]; lia.
Qed.

Lemma qdiv_ok a b : (0 < b)%Q -> qdiv a b = Some (a / b)%Q.
Proof. intros H. unfold qdiv. destruct (Qeq_bool b 0) eqn:E; [|reflexivity]. apply Qeq_bool_iff in E. rewrite E in H. exfalso. apply (Qlt_irrefl 0 H). Qed.

Lemma tap_ok t kernel r w n f get p : balanced_kernel kernel r -> 2 * r <= n ->
  (forall i, 0 <= i < r -> exists q, rd w i = Some q /\ (q == qsum (map (kat kernel) (zrange 0 (r + i + 1))))%Q) ->
  (forall y, 0 <= y < n -> get y = Some (f y)) -> (forall y, 0 <= y < n -> inty t (f y)) -> In p (taps n r) ->
  tap_value t kernel r w get p = Some (qtrunc (wmean kernel r n f (tap_pos p))).
Proof.
  intros (K & S & One) Hn Hw Hg Hf Hp. pose proof K as (Hr & Hl & _ & _). apply taps_In in Hp as [(x & Hx & ->)|[(x & Hx & ->)|(x & Hx & ->)]]; unfold tap_value, tap_pos; cbn [fst].
  - destruct (conv_sum_ok kernel r get f x (- x) r) as (s & E & Hs); [intros i Hi; split; [lia|apply Hg; lia]|]. rewrite E. cbn [option_bind]. destruct (Hw x Hx) as (q & Eq & Hq). rewrite Eq. cbn [option_bind].
    assert (Ew : window r n x = zrange (- x) (r - - x + 1)) by (apply window_range; lia).
    assert (Sw : (q == qsum (map (fun i => kat kernel (i + r)) (window r n x)))%Q).
    { rewrite Hq, Ew, (map_zrange_shift (kat kernel)). rewrite <- qsum_rev, <- map_rev, rev_zrange, map_map. replace (r - - x + 1) with (r + x + 1) by lia.
      rewrite <- (map_zrange_shift (kat kernel) (r - x) 0) || idtac. replace (- x + r) with (0 + (r - x)) by lia. rewrite <- (map_zrange_shift (kat kernel) (r - x)). apply qsum_ext. intros i Hi. apply zrange_In in Hi. rewrite (S (i + (r - x))) by lia. replace (2 * r - (i + (r - x))) with (2 * 0 + (r + x + 1) - 1 - i) by lia. reflexivity. }
    pose proof (window_pos kernel r n x K ltac:(lia)) as P. rewrite qdiv_ok by (rewrite Sw; exact P). cbn [option_bind]. apply to_pixel_ok; try assumption; [lia|]. unfold wmean. rewrite Hs, Sw, Ew. reflexivity.
  - destruct (conv_sum_ok kernel r get f x (- r) r) as (s & E & Hs); [intros i Hi; split; [lia|apply Hg; lia]|]. rewrite E. cbn [option_bind].
    assert (Ew : window r n x = zrange (- r) (r - - r + 1)) by (apply window_range; lia).
    apply to_pixel_ok; try assumption; [lia|]. unfold wmean. rewrite Ew, (map_zrange_shift (kat kernel)). assert ((qsum (map (kat kernel) (zrange (- r + r) (r - - r + 1))) == 1)%Q) as ->.
    { rewrite <- One. rewrite <- (kat_all kernel (2 * r + 1) Hl) at 2. replace (zrange (- r + r) (r - - r + 1)) with (zseq (2 * r + 1)); [reflexivity|]. unfold zrange. rewrite (map_ext _ (fun k => k)), map_id by (intros; lia). f_equal. lia. }
    rewrite Hs. field.
  - destruct (conv_sum_ok kernel r get f x (- r) (n - x - 1)) as (s & E & Hs); [intros i Hi; split; [lia|apply Hg; lia]|]. rewrite E. cbn [option_bind]. destruct (Hw (n - 1 - x)) as (q & Eq & Hq); [lia|]. rewrite Eq. cbn [option_bind].
    assert (Ew : window r n x = zrange (- r) (n - x - 1 - - r + 1)) by (apply window_range; lia).
    assert (Sw : (q == qsum (map (fun i => kat kernel (i + r)) (window r n x)))%Q).
    { rewrite Hq, Ew, (map_zrange_shift (kat kernel)). replace (- r + r) with 0 by lia. replace (n - x - 1 - - r + 1) with (r + (n - 1 - x) + 1) by lia. reflexivity. }
    pose proof (window_pos kernel r n x K ltac:(lia)) as P. rewrite qdiv_ok by (rewrite Sw; exact P). cbn [option_bind]. apply to_pixel_ok; try assumption; [lia|]. unfold wmean. rewrite Hs, Sw, Ew. reflexivity.
Qed.

Lemma taps_pos_surj n r x : 0 <= r -> 2 * r <= n -> 0 <= x < n -> exists p, In p (taps n r) /\ tap_pos p = x.
Proof.
  intros Hr Hn Hx. destruct (Z_lt_le_dec x r); [|destruct (Z_lt_le_dec x (n - r))]; eexists; rewrite taps_In; (split; [|reflexivity || (unfold tap_pos; cbn [fst])]); [left; exists x; split; [lia|reflexivity]|reflexivity|right; left; exists x; split; [lia|reflexivity]|reflexivity|right; right; exists x; split; [lia|reflexivity]|reflexivity].
Qed.
Lemma taps_pos_range n r p : 0 <= r -> 2 * r <= n -> In p (taps n r) -> 0 <= tap_pos p < n.
Proof. intros Hr Hn Hp. apply taps_In in Hp as [(x & Hx & ->)|[(x & Hx & ->)|(x & Hx & ->)]]; unfold tap_pos; cbn [fst]; lia. Qed.

(** One pixel of the Gaussian filter. *)
Lemma gauss_px_ok t kernel r get f c n : averaging kernel r -> 0 <= c < n -> (forall i, 0 <= c + i < n -> get i = Some (f (c + i)%Z)) -> (forall y, 0 <= y < n -> inty t (f y)) ->
  gauss_px t kernel r get c n = Some (qtrunc (wmean kernel r n f c)).
Proof.
  intros K Hc Hg Hf. pose proof K as (Hr & Hl & _ & _). unfold gauss_px.
  assert (G : forall l (s : Q * Q), (forall i, In i l -> - r <= i <= r) -> exists q, fold_opt (fun (s : Q * Q) i =>
      if (c + i <? 0) || (c + i >? n - 1) then Some s else
      option_bind (rd kernel (i + r)) (fun k => option_map (fun v => (fst s + k * inject_Z v, snd s + k)%Q) (get i))) l s = Some q /\
      (fst q == fst s + qsum (map (fun i => Qmult (kat kernel (i + r)) (inject_Z (f (c + i)%Z))) (filter (fun i => ((0 <=? c + i) && (c + i <? n))%Z) l)))%Q /\
      (snd q == snd s + qsum (map (fun i => kat kernel (i + r)) (filter (fun i => ((0 <=? c + i) && (c + i <? n))%Z) l)))%Q).
  { induction l as [|i l IH]; intros s H; [exists s; cbn [map fold_opt filter]; change (qsum []) with 0%Q; repeat split; lra|]. cbn [fold_opt filter]. pose proof (H i (or_introl eq_refl)) as Hi. destruct ((0 <=? c + i) && (c + i <? n)) eqn:B.
    - replace ((c + i <? 0) || (c + i >? n - 1)) with false by lia. rewrite rd_kat, Hg by lia. cbn [option_bind option_map].
      destruct (IH (fst s + kat kernel (i + r)%Z * inject_Z (f (c + i)%Z), snd s + kat kernel (i + r)%Z)%Q) as (q & E & H1 & H2); [intros j Hj; apply H; right; exact Hj|]. exists q. rewrite E. cbn [map]. rewrite !qsum_cons. cbn [fst snd] in H1, H2. repeat split; [rewrite H1; lra|rewrite H2; lra].
    - replace ((c + i <? 0) || (c + i >? n - 1)) with true by lia. apply IH. intros j Hj. apply H. right. exact Hj. }
  destruct (G (zrange (- r) (2 * r + 1)) (0, 0)%Q) as (q & E & H1 & H2); [intros i Hi; apply zrange_In in Hi; lia|]. rewrite E. cbn [option_bind]. cbn [fst snd] in H1, H2. fold (window r n c) in H1, H2. rewrite Qplus_0_l in H1, H2.
  pose proof (window_pos kernel r n c K Hc) as P. rewrite qdiv_ok by (rewrite H2; exact P). cbn [option_bind]. apply to_pixel_ok; try assumption. unfold wmean. rewrite H1, H2. reflexivity.
Qed.
