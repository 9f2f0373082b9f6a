(** Area openings by union-find on flat images: the order of the pixels. *)
From Verif Require Export Proofs.UnionFindProofs5 Model.AreaUnionFind.

Local Notation "l # i" := (znth 0 l i) (at level 9).

Section sorting.
Variable px : list Z.
Local Notation N := (Z.of_nat (length px)).
Hypothesis Hb : forall v, In v px -> 0 <= v < 256.

Definition tally (P : Z -> bool) : Z := Z.of_nat (length (filter P (zseq N))).
Lemma filter_split {A} (P Q T : A -> bool) l : (forall x, In x l -> T x = P x || Q x) -> (forall x, In x l -> P x && Q x = false) ->
  length (filter T l) = (length (filter P l) + length (filter Q l))%nat.
Proof using Hb.
  induction l as [|a l IH]; intros H1 H2; [reflexivity|]. cbn. specialize (IH (fun x Hx => H1 x (or_intror Hx)) (fun x Hx => H2 x (or_intror Hx))).
  rewrite (H1 a (or_introl eq_refl)). specialize (H2 a (or_introl eq_refl)). destruct (P a), (Q a); cbn in *; try discriminate; lia.
Qed.
Lemma tally_split P Q T : (forall x, 0 <= x < N -> T x = P x || Q x) -> (forall x, 0 <= x < N -> P x && Q x = false) -> tally T = tally P + tally Q.
Proof using Hb. intros H1 H2. unfold tally. rewrite (filter_split P Q T); [lia|intros x Hx; apply H1, zseq_In, Hx|intros x Hx; apply H2, zseq_In, Hx]. Qed.
Lemma filter_none {A} (P : A -> bool) l : (forall x, In x l -> P x = false) -> filter P l = [].
Proof using Hb. induction l as [|a l IH]; intros H; [reflexivity|]. cbn. rewrite (H a (or_introl eq_refl)). apply IH. intros x Hx. apply H. right. exact Hx. Qed.
Lemma tally_none P : (forall x, 0 <= x < N -> P x = false) -> tally P = 0.
Proof using Hb. intros H. unfold tally. rewrite filter_none; [reflexivity|]. intros x Hx. apply H, zseq_In, Hx. Qed.
Lemma px_range q : 0 <= q < N -> 0 <= px # q < 256.
Proof using Hb. intros H. apply Hb. eapply rd_In. apply (rd_znth 0). exact H. Qed.

Lemma tally_list v : tally (fun q => px # q =? v) = Z.of_nat (length (filter (fun w => w =? v) px)).
Proof using Hb.
  unfold tally. f_equal. assert (E : px = map (fun q => px # q) (zseq N)).
  { apply list_ext_rd; [rewrite map_length; pose proof (zseq_length N); lia|]. intros i. rewrite rd_map. destruct (Z_lt_dec i 0) as [L|L]; [rewrite !rd_out by lia; reflexivity|].
    destruct (Z_lt_dec i N) as [L'|L']; [rewrite rd_zseq by lia; cbn; apply (rd_znth 0); lia|]. rewrite !rd_out; [reflexivity|pose proof (zseq_length N); lia|lia]. }
  assert (X : forall l, length (filter (fun q => px # q =? v) l) = length (filter (fun w => w =? v) (map (fun q => px # q) l))).
  { induction l as [|a l IH]; [reflexivity|]. cbn. destruct (px # a =? v); cbn; rewrite IH; reflexivity. }
  rewrite X, <- E. reflexivity.
Qed.

Lemma hist_ok' l h0 : (forall v, In v l -> 0 <= v < 256) -> Z.of_nat (length h0) = 256 ->
  exists h, fold_opt (fun hist v => option_bind (rd hist v) (fun h => wr hist v (h + 1))) l h0 = Some h /\ Z.of_nat (length h) = 256 /\
    forall v, h # v = h0 # v + Z.of_nat (length (filter (fun w => w =? v) l)).
Proof using Hb.
  revert h0. induction l as [|a l IH]; intros h0 Hl L0; [exists h0; split; [reflexivity|]; split; [exact L0|]; intros; cbn; lia|].
  specialize (Hl a (or_introl eq_refl)) as Ra. cbn [fold_opt]. rewrite (rd_znth 0) by lia. cbn [option_bind]. rewrite wr_upd by lia. cbn [option_bind].
  destruct (IH (upd h0 a (h0 # a + 1))) as (h & E & L & H); [intros v Hv; apply Hl; right; exact Hv|rewrite upd_length; exact L0|].
  exists h. split; [exact E|]. split; [exact L|]. intros v. rewrite H, znth_upd' by lia. cbn [filter]. rewrite (Z.eqb_sym v a). destruct (a =? v) eqn:Q; cbn [length]; [assert (v = a) as -> by lia|]; lia.
Qed.

Lemma offsets_ok hist n idx0 : (forall v, 0 <= v < 256 -> hist # v = tally (fun q => px # q =? v)) -> Z.of_nat (length hist) = 256 -> (n <= 256)%nat -> Z.of_nat (length idx0) = 256 ->
  (forall v, Z.of_nat n <= v < 256 -> idx0 # v = tally (fun q => v <? px # q)) ->
  exists idx s, fold_opt (fun '(idx, s) i => option_bind (wr idx i s) (fun idx => option_bind (rd hist i) (fun h => Some (idx, s + h)))) (rev (zseq (Z.of_nat n))) (idx0, tally (fun q => Z.of_nat n <=? px # q)) = Some (idx, s) /\
    Z.of_nat (length idx) = 256 /\ forall v, 0 <= v < 256 -> idx # v = tally (fun q => v <? px # q).
Proof using Hb.
  intros Hh Lh. revert idx0. induction n as [|n IH]; intros idx0 Ln L0 H0; [exists idx0; eexists; split; [reflexivity|]; split; [exact L0|]; intros v Hv; apply H0; lia|].
  replace (Z.of_nat (S n)) with (Z.of_nat n + 1) in * by lia. rewrite zseq_succ by lia. rewrite rev_app_distr. cbn [rev app fold_opt]. rewrite wr_upd by lia. cbn [option_bind].
  rewrite (rd_znth 0) by lia. cbn [option_bind]. rewrite Hh by lia.
  replace (tally (fun q => Z.of_nat n + 1 <=? px # q) + tally (fun q => px # q =? Z.of_nat n)) with (tally (fun q => Z.of_nat n <=? px # q)) by (apply tally_split; intros; lia).
  apply IH; [lia|rewrite upd_length; exact L0|]. intros v Hv. rewrite znth_upd' by lia. destruct (v =? Z.of_nat n) eqn:Q; [|apply H0; lia].
  assert (v = Z.of_nat n) as -> by lia. unfold tally. do 2 f_equal. apply filter_ext. intros q. lia.
Qed.

Lemma rank_tally q : 0 <= q < N -> rank px q = tally (fun x => px # q <? px # x) + tally (fun x => (px # x =? px # q) && (x <? q)).
Proof using Hb. intros H. apply (tally_split _ _ (fun a => beforeb px a q)); intros x Hx; unfold beforeb; lia. Qed.

Lemma rank_lt q : 0 <= q < N -> 0 <= rank px q < N.
Proof using Hb.
  intros H. pose proof (rank_range px q). split; [lia|]. unfold rank. assert ((length (q :: filter (fun a => beforeb px a q) (zseq N)) <= length (zseq N))%nat) as L.
  { apply NoDup_incl_length; [constructor; [intros I; apply filter_In in I as (_ & I); apply beforeb_spec in I; exact (before_irrefl px q I)|apply NoDup_filter, zseq_NoDup]|].
    intros x [<- |I]; [apply zseq_In; exact H|apply filter_In in I; apply I]. }
  cbn [length] in L. pose proof (zseq_length N). lia.
Qed.
Lemma rank_inj a b : 0 <= a < N -> 0 <= b < N -> rank px a = rank px b -> a = b.
Proof using Hb. intros A B E. destruct (before_total px a b) as [H|[H|H]]; [pose proof (rank_before px a b A H); lia|exact H|pose proof (rank_before px b a B H); lia]. Qed.

Lemma place_ok idx0 sp0 k : (forall v, 0 <= v < 256 -> idx0 # v = tally (fun q => v <? px # q)) -> Z.of_nat (length idx0) = 256 -> Z.of_nat (length sp0) = N -> (k <= length px)%nat ->
  exists idx sp, fold_opt (down_place px) (zseq (Z.of_nat k)) (idx0, sp0) = Some (idx, sp) /\ Z.of_nat (length idx) = 256 /\ Z.of_nat (length sp) = N /\
    (forall v, 0 <= v < 256 -> idx # v = tally (fun q => v <? px # q) + tally (fun x => (px # x =? v) && (x <? Z.of_nat k))) /\
    forall q, 0 <= q < Z.of_nat k -> sp # (rank px q) = q.
Proof using Hb.
  intros H0 L0 Ls. induction k as [|k IH]; intros Lk.
  { exists idx0, sp0. split; [reflexivity|]. split; [exact L0|]. split; [exact Ls|]. split; [|intros; lia]. intros v Hv. rewrite H0 by exact Hv. rewrite (tally_none (fun x => _ && (x <? _))); [lia|]. intros; lia. }
  destruct IH as (idx & sp & E & L1 & L2 & H1 & H2); [lia|]. replace (Z.of_nat (S k)) with (Z.of_nat k + 1) by lia. rewrite zseq_succ by lia. rewrite fold_opt_app, E. cbn [option_bind fold_opt].
  set (q := Z.of_nat k) in *. assert (Rq : 0 <= q < N) by lia. pose proof (px_range q Rq) as Rv. unfold down_place. rewrite (rd_znth 0) by lia. cbn [option_bind]. rewrite (rd_znth 0) by lia. cbn [option_bind].
  rewrite (H1 _ Rv), <- (rank_tally q Rq). pose proof (rank_lt q Rq) as Rr. rewrite wr_upd by lia. cbn [option_bind]. rewrite wr_upd by lia. cbn [option_bind].
  eexists _, _. split; [reflexivity|]. rewrite !upd_length. split; [exact L1|]. split; [exact L2|]. split.
  - intros v Hv. rewrite znth_upd' by lia. destruct (v =? px # q) eqn:Q.
    + assert (v = px # q) as -> by lia. rewrite (rank_tally q Rq).
      assert (T1 : tally (fun x => x =? q) = 1).
      { assert (P : forall n, (k < n)%nat -> length (filter (fun x => x =? q) (zseq (Z.of_nat n))) = 1%nat).
        { induction n as [|n IHn]; intros Hn; [lia|]. replace (Z.of_nat (S n)) with (Z.of_nat n + 1) by lia. rewrite zseq_succ by lia. rewrite filter_app, app_length. cbn [filter].
          destruct (Nat.eq_dec n k) as [-> |Hk].
          - fold q. rewrite Z.eqb_refl. rewrite filter_none; [reflexivity|]. intros x Hx. apply zseq_In in Hx. lia.
          - rewrite IHn by lia. destruct (Z.of_nat n =? q) eqn:Qn; [unfold q in Qn; lia|reflexivity]. }
        unfold tally. rewrite P by lia. reflexivity. }
      rewrite (tally_split (fun x => (px # x =? px # q) && (x <? q)) (fun x => x =? q) (fun x => (px # x =? px # q) && (x <? q + 1))); [lia| |intros x Hx; lia].
      intros x Hx. destruct (Z.eq_dec x q) as [-> |]; [rewrite !Z.eqb_refl; lia|lia].
    + rewrite H1 by exact Hv. f_equal. unfold tally. do 2 f_equal. apply filter_ext_in. intros x Hx. destruct (Z.eq_dec x q) as [-> |]; lia.
  - intros x Hx. rewrite znth_upd' by lia. destruct (Z.eq_dec x q) as [-> |Nx]; [rewrite Z.eqb_refl; reflexivity|].
    destruct (rank px x =? rank px q) eqn:Q; [exfalso; apply Nx; apply rank_inj; lia|]. apply H2. lia.
Qed.

Lemma order_NoDup : NoDup (order px).
Proof using Hb.
  pose proof (order_sorted px) as S. induction S as [|a l S IH F]; [constructor|]. constructor; [|exact IH]. intros H. rewrite Forall_forall in F. exact (before_irrefl px a (F a H)).
Qed.
Lemma order_length : Z.of_nat (length (order px)) = N.
Proof using Hb.
  assert (length (order px) = length (zseq N)) as ->; [|rewrite zseq_length by lia; lia].
  apply Nat.le_antisymm; apply NoDup_incl_length; try apply order_NoDup; try apply zseq_NoDup; intros x Hx; [apply zseq_In, order_In, Hx|apply order_In, zseq_In, Hx].
Qed.
Lemma order_rank i q : rd (order px) i = Some q -> rank px q = i.
Proof using Hb.
  intros H. pose proof (rd_Some_range _ _ _ H) as Ri. destruct (nth_error_split (order px) (Z.to_nat i)) with (a := q) as (done & rest & E & L).
  { unfold rd in H. destruct (0 <=? i); [exact H|discriminate]. }
  pose proof (order_split px done q rest E) as HD. unfold rank.
  assert (length (filter (fun a => beforeb px a q) (zseq N)) = length done) as ->; [|lia].
  pose proof order_NoDup as ND. rewrite E in ND. assert (ND' : NoDup done) by (clear - ND; induction done as [|a l IH]; [constructor|]; cbn in ND; apply NoDup_cons_iff in ND as (A & B); constructor; [intros H; apply A, in_or_app; left; exact H|apply IH, B]).
  apply Nat.le_antisymm; apply NoDup_incl_length; [apply NoDup_filter, zseq_NoDup| |exact ND'|].
  - intros x Hx. apply filter_In in Hx as (H1 & H2). apply HD. split; [apply zseq_In, H1|apply beforeb_spec, H2].
  - intros x Hx. apply HD in Hx as (H1 & H2). apply filter_In. split; [apply zseq_In, H1|apply beforeb_spec, H2].
Qed.

Theorem pixelDownSort_ok sp : Z.of_nat (length sp) = N -> pixelDownSort px sp = Some (order px).
Proof using Hb.
  intros Ls. unfold pixelDownSort, down_hist. destruct (hist_ok' px (repeat 0 256) Hb eq_refl) as (hist & E1 & L1 & H1). rewrite E1. cbn [option_bind].
  unfold down_offsets. destruct (offsets_ok hist 256 (repeat 0 256)) as (idx & s & E2 & L2 & H2).
  - intros v Hv. rewrite H1, tally_list. assert ((repeat 0 256) # v = 0) as ->; [|reflexivity]. unfold znth. rewrite rd_repeat by lia. reflexivity.
  - exact L1.
  - lia.
  - reflexivity.
  - intros; lia.
  - change (Z.of_nat 256) with 256 in E2. rewrite (tally_none (fun q => 256 <=? px # q)) in E2 by (intros x Hx; pose proof (px_range x Hx); lia). rewrite E2. cbn [option_bind].
    destruct (place_ok idx sp (length px) H2 L2 Ls) as (idx' & sp' & E3 & L3 & L4 & H3 & H4); [lia|]. rewrite E3. cbn [option_bind]. f_equal.
    apply list_ext_rd; [pose proof order_length; lia|]. intros i. destruct (Z_lt_dec i 0) as [L|L]; [rewrite !rd_out by lia; reflexivity|].
    destruct (Z_lt_dec i N) as [L'|L']; [|pose proof order_length; rewrite !rd_out by lia; reflexivity].
    pose proof order_length as Lo. destruct (rd (order px) i) as [q|] eqn:Q.
    + pose proof (order_rank i q Q) as Er. pose proof (H4 q (proj1 (order_In px q) (rd_In _ _ _ Q))) as Hq. rewrite Er in Hq. rewrite (rd_znth 0 sp' i) by lia. rewrite Hq. reflexivity.
    + rewrite (rd_znth 0) in Q by lia. discriminate.
Qed.
End sorting.
