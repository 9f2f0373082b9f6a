(** Union-find: the order of the pixels. *)
From Verif Require Export Proofs.UnionFindProofs2.
From Coq Require Export Sorting.Sorted.

Local Notation "l # i" := (znth 0 l i) (at level 9).

Lemma ss_app {A} (P : A -> A -> Prop) l1 l2 : StronglySorted P l1 -> StronglySorted P l2 -> (forall a b, In a l1 -> In b l2 -> P a b) -> StronglySorted P (l1 ++ l2).
Proof.
  intros H1 H2 H. induction H1 as [|a l H1 IH F]; [exact H2|]. cbn. constructor; [apply IH; intros x y Hx Hy; apply H; [right; exact Hx|exact Hy]|].
  apply Forall_app. split; [exact F|]. apply Forall_forall. intros y Hy. apply H; [left; reflexivity|exact Hy].
Qed.

Section order.
Variables (px : list Z).
Local Notation N := (Z.of_nat (length px)).

(** [a] is met before [b]. *)
Definition before (a b : Z) : Prop := px # b < px # a \/ (px # a = px # b /\ a < b).
Lemma before_irrefl a : ~ before a a.
Proof using. unfold before. lia. Qed.
Lemma before_trans a b c : before a b -> before b c -> before a c.
Proof using. unfold before. lia. Qed.
Lemma before_total a b : before a b \/ a = b \/ before b a.
Proof using. unfold before. lia. Qed.

Definition hist_ok (n : Z) (m : list (Z * list Z)) : Prop :=
  StronglySorted (fun a b => fst a < fst b) m /\
  (forall v l, In (v, l) m -> StronglySorted Z.lt l /\ forall i, In i l <-> 0 <= i < n /\ px # i = v) /\
  (forall i, 0 <= i < n -> exists l, In (px # i, l) m).

Lemma hist_add_ok n v m : 0 <= n -> v = px # n -> StronglySorted (fun a b => fst a < fst b) m ->
  (forall w l, In (w, l) m -> StronglySorted Z.lt l /\ forall i, In i l <-> 0 <= i < n /\ px # i = w) -> (forall i, 0 <= i < n -> px # i = v -> exists l, In (v, l) m) ->
  StronglySorted (fun a b => fst a < fst b) (hist_add m v n) /\
  (forall w l, In (w, l) (hist_add m v n) -> StronglySorted Z.lt l /\ forall i, In i l <-> 0 <= i < n + 1 /\ px # i = w) /\
  (forall w l, In (w, l) m -> exists l', In (w, l') (hist_add m v n)) /\ (exists l, In (v, l) (hist_add m v n)) /\
  (forall w l, In (w, l) (hist_add m v n) -> w = v \/ exists l', In (w, l') m).
Proof using.
  intros Hn Ev. subst v. induction m as [|(w, l) m IH]; intros SS Hm Hv.
  - cbn. split; [repeat constructor|]. split; [|split; [intros ? ? []|split; [exists [n]; left; reflexivity|intros w l [E|[]]; injection E as <- <-; auto]]].
    intros w l [E|[]]. injection E as <- <-. split; [repeat constructor|]. intros i. split; [intros [<- |[]]; lia|]. intros (R & Ei). left.
    destruct (Z.eq_dec i n); [lia|]. destruct (Hv i ltac:(lia) Ei) as (? & []).
  - apply StronglySorted_inv in SS as (SS & F). rewrite Forall_forall in F. cbn [hist_add]. destruct (px # n <? w) eqn:Q1.
    + (* a new key, before all *)
      assert (None_here : forall i, 0 <= i < n -> px # i = px # n -> False).
      { intros i R Ei. destruct (Hv i R Ei) as (l' & [E|E]); [injection E as E _; lia|]. specialize (F _ E). cbn in F. lia. }
      split; [constructor; [constructor; [exact SS|apply Forall_forall; exact F]|]; constructor; [cbn; lia|apply Forall_forall; intros e He; specialize (F e He); cbn in F |- *; lia]|].
      split; [|split; [intros w' l' H; exists l'; right; exact H|split; [exists [n]; left; reflexivity|]]].
      * intros w' l' [E|H].
        -- injection E as <- <-. split; [repeat constructor|]. intros i. split; [intros [<- |[]]; lia|]. intros (R & Ei). left. destruct (Z.eq_dec i n); [lia|]. exfalso. apply (None_here i); [lia|exact Ei].
        -- destruct (Hm w' l' H) as (S1 & I1). split; [exact S1|]. intros i. rewrite I1. split; [lia|]. intros (R & Ei). split; [|exact Ei]. destruct (Z.eq_dec i n) as [-> |]; [|lia].
           exfalso. destruct H as [E|H]; [injection E as E _; lia|]. specialize (F _ H). cbn in F. lia.
      * intros w' l' [E|H]; [injection E as <- <-; auto|right; exists l'; exact H].
    + destruct (px # n =? w) eqn:Q2.
      * (* an old key *)
        assert (w = px # n) as -> by lia. clear IH. destruct (Hm (px # n) l (or_introl eq_refl)) as (S0 & I0).
        split; [constructor; [exact SS|apply Forall_forall; exact F]|]. split; [|split; [|split]].
        -- intros w' l' [E|H].
           ++ injection E as <- <-. split; [apply ss_app; [exact S0|repeat constructor|intros a b Ha [<- |[]]; apply I0 in Ha; lia]|].
              intros i. rewrite in_app_iff, I0. cbn [In]. split; [intros [H|[<- |[]]]; lia|]. intros (R & Ei). destruct (Z.eq_dec i n); [right; left; lia|left; lia].
           ++ destruct (Hm w' l' (or_intror H)) as (S1 & I1). split; [exact S1|]. intros i. rewrite I1. split; [lia|]. intros (R & Ei). split; [|exact Ei]. destruct (Z.eq_dec i n) as [-> |]; [|lia].
              specialize (F _ H). cbn in F. lia.
        -- intros w' l' [E|H]; [injection E as <- <-; exists (l ++ [n]); left; reflexivity|exists l'; right; exact H].
        -- exists (l ++ [n]). left. reflexivity.
        -- intros w' l' [E|H]; [injection E as <- <-; auto|right; exists l'; right; exact H].
      * destruct IH as (I1 & I2 & I3 & I4 & I5); [exact SS|intros w' l' H; apply Hm; right; exact H| |].
        -- intros i R Ei. destruct (Hv i R Ei) as (l' & [E|H]); [injection E as E _; lia|exists l'; exact H].
        -- split; [constructor; [exact I1|]; apply Forall_forall; intros (w', l') H; cbn; destruct (I5 w' l' H) as [-> |(l2 & H2)]; [lia|specialize (F _ H2); cbn in F; exact F]|].
           split; [|split; [|split]].
           ++ intros w' l' [E|H]; [|apply I2; exact H]. injection E as <- <-. destruct (Hm w l (or_introl eq_refl)) as (S1 & J1). split; [exact S1|]. intros i. rewrite J1. split; [lia|]. intros (R & Ei). split; [|exact Ei].
              destruct (Z.eq_dec i n) as [-> |]; lia.
           ++ intros w' l' [E|H]; [injection E as <- <-; exists l; left; reflexivity|]. destruct (I3 w' l' H) as (l2 & H2). exists l2. right. exact H2.
           ++ destruct I4 as (l2 & H2). exists l2. right. exact H2.
           ++ intros w' l' [E|H]; [injection E as <- <-; right; exists l; left; reflexivity|]. destruct (I5 w' l' H) as [-> |(l2 & H2)]; [auto|right; exists l2; right; exact H2].
Qed.

Lemma hist_fold n : hist_ok (Z.of_nat n) (fold_left (fun m i => hist_add m (px # i) i) (zseq (Z.of_nat n)) []).
Proof using.
  induction n as [|n IH]; [split; [constructor|]; split; [intros ? ? []|intros; lia]|].
  replace (Z.of_nat (S n)) with (Z.of_nat n + 1) by lia. rewrite zseq_succ by lia. rewrite fold_left_app. cbn [fold_left].
  destruct IH as (A & B & C). destruct (hist_add_ok (Z.of_nat n) (px # (Z.of_nat n)) _ ltac:(lia) eq_refl A B) as (H1 & H2 & H3 & H4 & _).
  - intros i R Ei. rewrite <- Ei. apply C. exact R.
  - split; [exact H1|]. split; [exact H2|]. intros i R. destruct (Z.eq_dec i (Z.of_nat n)) as [-> |]; [exact H4|]. destruct (C i ltac:(lia)) as (l & Hl). exact (H3 _ _ Hl).
Qed.
Lemma histogram_ok : hist_ok N (mkHistogram px).
Proof using. apply hist_fold. Qed.

Definition order : list Z := flat_map snd (rev (mkHistogram px)).
Lemma order_back : flat_map (fun e => rev (snd e)) (mkHistogram px) = rev order.
Proof using.
  unfold order. induction (mkHistogram px) as [|e m IH]; [reflexivity|]. cbn [flat_map rev]. rewrite flat_map_app, rev_app_distr. cbn [flat_map]. rewrite app_nil_r, IH. reflexivity.
Qed.
Lemma order_In q : In q order <-> 0 <= q < N.
Proof using.
  unfold order. rewrite in_flat_map. destruct histogram_ok as (_ & B & C). split.
  - intros ((v, l) & H1 & H2). apply in_rev in H1. apply (B v l H1) in H2. apply H2.
  - intros R. destruct (C q R) as (l & Hl). exists (px # q, l). split; [apply in_rev; rewrite rev_involutive; exact Hl|]. apply (B _ l Hl). auto.
Qed.
Lemma order_sorted : StronglySorted before order.
Proof using.
  unfold order. destruct histogram_ok as (A & B & _). induction (mkHistogram px) as [|(v, l) m IH]; [constructor|]. apply StronglySorted_inv in A as (A & F). rewrite Forall_forall in F.
  cbn [rev]. rewrite flat_map_app. cbn [flat_map snd]. rewrite app_nil_r. destruct (B v l (or_introl eq_refl)) as (S1 & I1). apply ss_app.
  - apply IH; [exact A|]. intros w k H. apply B. right. exact H.
  - assert (forall i, In i l -> px # i = v) as Hl by (intros i Hi; apply I1, Hi). clear - S1 Hl. induction S1 as [|a l S1 IH F]; [constructor|]. constructor; [apply IH; intros i Hi; apply Hl; right; exact Hi|].
    rewrite Forall_forall in F |- *. intros b Hb. right. rewrite (Hl a (or_introl eq_refl)), (Hl b (or_intror Hb)). split; [reflexivity|apply F; exact Hb].
  - intros a b Ha Hb. apply in_flat_map in Ha as ((w, k) & H1 & H2). apply in_rev in H1. apply (B w k (or_intror H1)) in H2. apply I1 in Hb. specialize (F _ H1). cbn in F. left. lia.
Qed.

Lemma order_split done p rest : order = done ++ p :: rest -> forall q, In q done <-> 0 <= q < N /\ before q p.
Proof using.
  intros E q. pose proof order_sorted as S. rewrite E in S.
  assert (G : forall a, In a done -> before a p). { intros a Ha. clear E. induction done as [|d l IH]; [destruct Ha|]. cbn in S. apply StronglySorted_inv in S as (S & F). destruct Ha as [<- |Ha]; [|apply IH; assumption]. rewrite Forall_forall in F. apply F. apply in_or_app. right. left. reflexivity. }
  assert (G' : forall a, In a rest -> before p a). { intros a Ha. clear E G. induction done as [|d l IH]; cbn in S; apply StronglySorted_inv in S as (S & F); [rewrite Forall_forall in F; apply F; exact Ha|apply IH; exact S]. }
  split.
  - intros H. split; [apply order_In; rewrite E; apply in_or_app; left; exact H|apply G; exact H].
  - intros (R & H). apply order_In in R. rewrite E in R. apply in_app_iff in R as [R|[-> |R]]; [exact R|destruct (before_irrefl q H)|]. destruct (before_irrefl q). eapply before_trans; [exact H|apply G'; exact R].
Qed.
Lemma order_p done p rest : order = done ++ p :: rest -> 0 <= p < N.
Proof using. intros E. apply order_In. rewrite E. apply in_or_app. right. left. reflexivity. Qed.
Lemma order_later done p rest q : order = done ++ p :: rest -> (In q rest <-> 0 <= q < N /\ before p q).
Proof using.
  intros E. split.
  - intros H. assert (0 <= q < N) as R by (apply order_In; rewrite E; apply in_or_app; right; right; exact H). split; [exact R|]. destruct (before_total p q) as [B|[-> |B]]; [exact B| |].
    + exfalso. pose proof order_sorted as S. rewrite E in S. clear E R. induction done as [|d l IH]; cbn in S; apply StronglySorted_inv in S as (S & F); [|apply IH; exact S]. rewrite Forall_forall in F. exact (before_irrefl q (F q H)).
    + exfalso. pose proof order_sorted as S. rewrite E in S. clear E R. induction done as [|d l IH]; cbn in S; apply StronglySorted_inv in S as (S & F); [|apply IH; exact S]. rewrite Forall_forall in F.
      exact (before_irrefl q (before_trans _ _ _ B (F q H))).
  - intros (R & H). apply order_In in R. rewrite E in R. apply in_app_iff in R as [R|[-> |R]]; [|destruct (before_irrefl q H)|exact R]. exfalso. apply (order_split done p rest E) in R. destruct R as (_ & R). exact (before_irrefl q (before_trans _ _ _ R H)).
Qed.

(** The rank of a pixel. *)
Definition beforeb (a b : Z) : bool := (px # b <? px # a) || ((px # a =? px # b) && (a <? b)).
Lemma beforeb_spec a b : beforeb a b = true <-> before a b.
Proof using. unfold beforeb, before. lia. Qed.
Definition rank (q : Z) : Z := Z.of_nat (length (filter (fun a => beforeb a q) (zseq N))).
Lemma rank_range q : 0 <= rank q <= N.
Proof using.
  unfold rank. assert (forall l : list Z, (length (filter (fun a => beforeb a q) l) <= length l)%nat) as H by (induction l as [|x l IH]; cbn; [lia|]; destruct (beforeb x q); cbn; lia).
  specialize (H (zseq N)). rewrite zseq_length in H by lia. lia.
Qed.
Lemma rank_before a b : 0 <= a < N -> before a b -> rank a < rank b.
Proof using.
  intros R H. unfold rank. assert ((length (a :: filter (fun x => beforeb x a) (zseq N)) <= length (filter (fun x => beforeb x b) (zseq N)))%nat) as L; [|cbn in L; lia].
  apply NoDup_incl_length.
  - constructor; [intros I; apply filter_In in I as (_ & I); apply beforeb_spec in I; exact (before_irrefl a I)|apply NoDup_filter, zseq_NoDup].
  - intros x [<- |I]; [apply filter_In; split; [apply zseq_In; exact R|apply beforeb_spec; exact H]|]. apply filter_In in I as (I1 & I2). apply filter_In. split; [exact I1|]. apply beforeb_spec in I2. apply beforeb_spec. eapply before_trans; eassumption.
Qed.
Lemma rank_inv a b : 0 <= b < N -> rank a < rank b -> before a b.
Proof using. intros R L. destruct (before_total a b) as [H|[-> |H]]; [exact H|lia|]. pose proof (rank_before b a R H). lia. Qed.
End order.
