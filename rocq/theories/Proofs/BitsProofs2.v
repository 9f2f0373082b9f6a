(** Loops over the words of bit lines. *)
From Verif Require Export Proofs.BitsProofs Proofs.GeometryFacts.

Lemma fold_opt_ext {A B} (f g : B -> A -> option B) l b :
  (forall b a, In a l -> f b a = g b a) -> fold_opt f l b = fold_opt g l b.
Proof.
  revert b. induction l as [|a l IH]; intros b H; [reflexivity|]. cbn.
  rewrite H by (left; reflexivity). destruct (g b a); [|reflexivity].
  apply IH. intros. apply H. right. assumption.
Qed.

(** A loop that writes, at step [i], the value [vals i] at position [o i], computed from words that
    the earlier steps have not written. *)
Lemma write_loop (g : list Z -> Z -> option Z) (o vals : Z -> Z) n m0 :
  0 <= n ->
  (forall i, 0 <= i < n -> 0 <= o i < Z.of_nat (length m0)) ->
  (forall i j, 0 <= i < n -> 0 <= j < n -> o i = o j -> i = j) ->
  (forall i m, 0 <= i < n -> length m = length m0 ->
     (forall k, (forall j, 0 <= j < i -> k <> o j) -> rd m k = rd m0 k) -> g m i = Some (vals i)) ->
  exists m', fold_opt (fun m i => wr_word m (o i) (g m i)) (zseq n) m0 = Some m' /\
    length m' = length m0 /\
    (forall i, 0 <= i < n -> rd m' (o i) = Some (vals i)) /\
    (forall k, (forall j, 0 <= j < n -> k <> o j) -> rd m' k = rd m0 k).
Proof.
  intros Hn HO HI HG.
  assert (forall p, 0 <= p -> p <= n ->
    exists m', fold_opt (fun m i => wr_word m (o i) (g m i)) (zseq p) m0 = Some m' /\
      length m' = length m0 /\
      (forall i, 0 <= i < p -> rd m' (o i) = Some (vals i)) /\
      (forall k, (forall j, 0 <= j < p -> k <> o j) -> rd m' k = rd m0 k)) as ALL; [|apply ALL; lia].
  intros p P. pattern p. apply natlike_ind; [| |exact P].
  - intros _. exists m0. split; [reflexivity|]. split; [reflexivity|]. split; [lia|reflexivity].
  - intros q Hq IH Hq1. destruct IH as (m1 & E & L & V & K); [lia|].
    unfold Z.succ. rewrite zseq_succ by lia. rewrite fold_opt_app, E. cbn [fold_opt option_bind].
    rewrite (HG q m1) by (assumption || lia). cbn [wr_word].
    destruct (wr_Some m1 (o q) (vals q)) as [m2 E2]; [rewrite L; apply HO; lia|].
    rewrite E2. exists m2. split; [reflexivity|].
    split; [rewrite (wr_length _ _ _ _ E2); exact L|]. split.
    + intros i Hi. rewrite (rd_wr _ _ _ _ (o i) E2).
      destruct (Z.eqb_spec (o q) (o i)) as [Q|Q].
      * apply HI in Q; [subst; reflexivity|lia|lia].
      * apply V. assert (i <> q) by congruence. lia.
    + intros k Hk. rewrite (rd_wr _ _ _ _ k E2).
      destruct (Z.eqb_spec (o q) k) as [Q|Q]; [exfalso; apply (Hk q); [lia|congruence]|].
      apply K. intros j Hj. apply Hk. lia.
Qed.

(** Word [k] of a line. *)
Definition wd (m : list Z) (a : bitarr) (k : Z) : Z := znth 0 m (ba_int a + k).

Lemma line_words m a : line_in m a ->
  0 < row_words (ba_width a) /\ INT_SIZE (ba_width a) = row_words (ba_width a) /\
  0 <= ba_int a /\ ba_int a + row_words (ba_width a) <= Z.of_nat (length m) /\
  0 < ba_width a < 2 ^ 32 /\ ba_width a <= 64 * row_words (ba_width a) < ba_width a + 64.
Proof.
  intros (A & H & _). pose proof (array_small m a A) as (W & _ & R).
  pose proof (row_words_pos _ (proj1 W)) as [P Q]. pose proof (INT_SIZE_row _ W).
  destruct A as (_ & _ & _ & _ & O & L). rewrite H in L. lia.
Qed.

Lemma rd_wd m a k : line_in m a -> 0 <= k < row_words (ba_width a) ->
  rd m (ba_int a + k) = Some (wd m a k) /\ 0 <= wd m a k < 2 ^ 64.
Proof.
  intros H Hk. pose proof (line_words m a H) as (_ & _ & O & L & _).
  destruct (rd_in_range m (ba_int a + k)) as [w E]; [lia|].
  unfold wd, znth. rewrite E. split; [reflexivity|].
  destruct H as ((A & _) & _). eapply A. exact E.
Qed.

Lemma line_bit m a i : line_in m a -> 0 <= i < ba_width a ->
  getValue m a i = Some (Z.testbit (wd m a (i / 64)) (i mod 64)).
Proof.
  intros H Hi. pose proof (line_words m a H) as (_ & _ & _ & _ & W & Q).
  pose proof H as (A & H1 & _).
  rewrite get_bit by (try assumption; rewrite H1; lia).
  unfold word_at, bit_at. rewrite (Z.div_small i), (Z.mod_small i) by exact Hi.
  rewrite Z.mul_0_l, Z.add_0_l.
  destruct (rd_wd m a (i / 64) H) as [-> _]; [clear - Hi Q; lia|]. reflexivity.
Qed.

(** A line all of whose words have been written. *)
Lemma line_result m m' a vals : line_in m a -> length m' = length m ->
  (forall k, 0 <= k < row_words (ba_width a) -> rd m' (ba_int a + k) = Some (vals k) /\ 0 <= vals k < 2 ^ 64) ->
  (forall k, (forall j, 0 <= j < row_words (ba_width a) -> k <> ba_int a + j) -> rd m' k = rd m k) ->
  only_in a m m' /\ line_in m' a /\
  forall i, 0 <= i < ba_width a -> getValue m' a i = Some (Z.testbit (vals (i / 64)) (i mod 64)).
Proof.
  intros H L V K. pose proof H as (A & H1 & H2).
  assert (all_words m') as W.
  { intros k w E. destruct (Z_lt_le_dec k (ba_int a)) as [B|B].
    - rewrite K in E by (intros; lia). destruct A as (A & _). eapply A. exact E.
    - destruct (Z_lt_le_dec (k - ba_int a) (row_words (ba_width a))) as [C|C].
      + destruct (V (k - ba_int a)) as [F G]; [lia|].
        replace (ba_int a + (k - ba_int a)) with k in F by lia. congruence.
      + rewrite K in E by (intros; lia). destruct A as (A & _). eapply A. exact E. }
  assert (line_in m' a) as H'.
  { split; [apply (array_upd m); assumption|]. tauto. }
  split; [|split; [exact H'|]].
  - split; [exact L|]. split; [exact W|]. rewrite H1. intros k Hk. apply K. intros j Hj. lia.
  - intros i Hi. rewrite line_bit by assumption.
    pose proof (line_words m a H) as (_ & _ & _ & _ & _ & Q).
    destruct (V (i / 64)) as [E _]; [clear - Hi Q; lia|].
    unfold wd, znth. rewrite E. reflexivity.
Qed.

(** Lines of the same width that are the same words or apart: reading an input word before it is
    written. *)
Lemma input_kept m0 m a lo i : line_in m0 a -> line_in m0 lo -> ba_width a = ba_width lo ->
  same_or_apart a lo -> 0 <= i < row_words (ba_width lo) ->
  (forall k, (forall j, 0 <= j < i -> k <> ba_int lo + j) -> rd m k = rd m0 k) ->
  rd m (ba_int a + i) = Some (wd m0 a i).
Proof.
  intros Ha Ho W S Hi K. rewrite K.
  - apply rd_wd; [exact Ha|]. rewrite W. exact Hi.
  - intros j Hj. destruct S as [S|S]; [lia|].
    unfold apart in S. destruct Ha as (_ & Ea & _), Ho as (_ & Eo & _). rewrite W, Ea, Eo in S. lia.
Qed.

Section Loops.
Variables (m : list Z) (lo : bitarr).
Hypothesis Ho : line_in m lo.

Lemma word_loop1_ok f l1 : line_in m l1 -> ba_width l1 = ba_width lo -> same_or_apart l1 lo ->
  (forall a, 0 <= a < 2 ^ 64 -> 0 <= f a < 2 ^ 64) ->
  exists m', word_loop1 f m l1 (ba_width lo) lo = Some m' /\ only_in lo m m' /\ line_in m' lo /\
    forall i, 0 <= i < ba_width lo -> getValue m' lo i = Some (Z.testbit (f (wd m l1 (i / 64))) (i mod 64)).
Proof using Ho.
  intros H1 W1 S1 F. pose proof (line_words m lo Ho) as (P & E & O & L & W & Q).
  unfold word_loop1. rewrite E.
  destruct (write_loop (fun m i => match rd m (ba_int l1 + i) with Some a => Some (f a) | None => None end)
              (fun i => ba_int lo + i) (fun i => f (wd m l1 i)) (row_words (ba_width lo)) m)
    as (m' & R & Lm & V & K).
  - lia.
  - intros i Hi. lia.
  - intros i j _ _. lia.
  - intros i m1 Hi Lm K. rewrite (input_kept m m1 l1 lo i) by assumption. reflexivity.
  - exists m'. split.
    + rewrite <- R. apply fold_opt_ext. intros b a _. destruct (rd b (ba_int l1 + a)); reflexivity.
    + apply (line_result m m' lo (fun k => f (wd m l1 k))); try assumption.
      intros k Hk. split; [apply V; exact Hk|]. apply F. apply rd_wd; [exact H1|]. rewrite W1. exact Hk.
Qed.

Lemma word_loop2_ok f l1 l2 : line_in m l1 -> line_in m l2 ->
  ba_width l1 = ba_width lo -> ba_width l2 = ba_width lo -> same_or_apart l1 lo -> same_or_apart l2 lo ->
  (forall a b, 0 <= a < 2 ^ 64 -> 0 <= b < 2 ^ 64 -> 0 <= f a b < 2 ^ 64) ->
  exists m', word_loop2 f m l1 l2 (ba_width lo) lo = Some m' /\ only_in lo m m' /\ line_in m' lo /\
    forall i, 0 <= i < ba_width lo ->
      getValue m' lo i = Some (Z.testbit (f (wd m l1 (i / 64)) (wd m l2 (i / 64))) (i mod 64)).
Proof using Ho.
  intros H1 H2 W1 W2 S1 S2 F. pose proof (line_words m lo Ho) as (P & E & O & L & W & Q).
  unfold word_loop2. rewrite E.
  destruct (write_loop (fun m i => match rd m (ba_int l1 + i), rd m (ba_int l2 + i) with Some a, Some b => Some (f a b) | _, _ => None end)
              (fun i => ba_int lo + i) (fun i => f (wd m l1 i) (wd m l2 i)) (row_words (ba_width lo)) m)
    as (m' & R & Lm & V & K).
  - lia.
  - intros i Hi. lia.
  - intros i j _ _. lia.
  - intros i m1 Hi Lm K. rewrite (input_kept m m1 l1 lo i), (input_kept m m1 l2 lo i) by assumption. reflexivity.
  - exists m'. split.
    + rewrite <- R. apply fold_opt_ext. intros b a _.
      destruct (rd b (ba_int l1 + a)), (rd b (ba_int l2 + a)); reflexivity.
    + apply (line_result m m' lo (fun k => f (wd m l1 k) (wd m l2 k))); try assumption.
      intros k Hk. split; [apply V; exact Hk|].
      apply F; apply rd_wd; try assumption; [rewrite W1|rewrite W2]; exact Hk.
Qed.

Lemma word_loop3_ok f l1 l2 l3 : line_in m l1 -> line_in m l2 -> line_in m l3 ->
  ba_width l1 = ba_width lo -> ba_width l2 = ba_width lo -> ba_width l3 = ba_width lo ->
  same_or_apart l1 lo -> same_or_apart l2 lo -> same_or_apart l3 lo ->
  (forall a b c, 0 <= a < 2 ^ 64 -> 0 <= b < 2 ^ 64 -> 0 <= c < 2 ^ 64 -> 0 <= f a b c < 2 ^ 64) ->
  exists m', word_loop3 f m l1 l2 l3 (ba_width lo) lo = Some m' /\ only_in lo m m' /\ line_in m' lo /\
    forall i, 0 <= i < ba_width lo ->
      getValue m' lo i =
      Some (Z.testbit (f (wd m l1 (i / 64)) (wd m l2 (i / 64)) (wd m l3 (i / 64))) (i mod 64)).
Proof using Ho.
  intros H1 H2 H3 W1 W2 W3 S1 S2 S3 F. pose proof (line_words m lo Ho) as (P & E & O & L & W & Q).
  unfold word_loop3. rewrite E.
  destruct (write_loop (fun m i => match rd m (ba_int l1 + i), rd m (ba_int l2 + i), rd m (ba_int l3 + i) with Some a, Some b, Some c => Some (f a b c) | _, _, _ => None end)
              (fun i => ba_int lo + i) (fun i => f (wd m l1 i) (wd m l2 i) (wd m l3 i)) (row_words (ba_width lo)) m)
    as (m' & R & Lm & V & K).
  - lia.
  - intros i Hi. lia.
  - intros i j _ _. lia.
  - intros i m1 Hi Lm K.
    rewrite (input_kept m m1 l1 lo i), (input_kept m m1 l2 lo i), (input_kept m m1 l3 lo i) by assumption. reflexivity.
  - exists m'. split.
    + rewrite <- R. apply fold_opt_ext. intros b a _.
      destruct (rd b (ba_int l1 + a)), (rd b (ba_int l2 + a)), (rd b (ba_int l3 + a)); reflexivity.
    + apply (line_result m m' lo (fun k => f (wd m l1 k) (wd m l2 k) (wd m l3 k))); try assumption.
      intros k Hk. split; [apply V; exact Hk|].
      apply F; apply rd_wd; try assumption; [rewrite W1|rewrite W2|rewrite W3]; exact Hk.
Qed.

Lemma word_of_word b : 0 <= word_of b < 2 ^ 64.
Proof using. destruct b; cbn; lia. Qed.
Lemma word_of_bit b n : 0 <= n < 64 -> Z.testbit (word_of b) n = b.
Proof using.
  intros H. destruct b; [|apply Z.bits_0]. unfold word_of.
  change (2 ^ 64 - 1) with (Z.ones 64). apply Z.ones_spec_low. lia.
Qed.

Lemma fill_ok v : exists m', fillLine_bit m lo (ba_width lo) v = Some m' /\ only_in lo m m' /\ line_in m' lo /\
    forall i, 0 <= i < ba_width lo -> getValue m' lo i = Some v.
Proof using Ho.
  pose proof (line_words m lo Ho) as (P & E & O & L & W & Q).
  unfold fillLine_bit. rewrite E.
  destruct (write_loop (fun m i => Some (word_of v))
              (fun i => ba_int lo + i) (fun i => word_of v) (row_words (ba_width lo)) m)
    as (m' & R & Lm & V & K).
  - lia.
  - intros i Hi. lia.
  - intros i j _ _. lia.
  - reflexivity.
  - exists m'. split; [exact R|].
    destruct (line_result m m' lo (fun _ => word_of v)) as (A & B & C); try assumption.
    + intros k Hk. split; [apply V; exact Hk|apply word_of_word].
    + split; [exact A|]. split; [exact B|]. intros i Hi. rewrite C by exact Hi.
      rewrite word_of_bit; [reflexivity|]. apply Z.mod_pos_bound. lia.
Qed.

Lemma copy_ok l1 : line_in m l1 -> ba_width l1 = ba_width lo -> same_or_apart l1 lo ->
  exists m', copyLine_bit m l1 (ba_width lo) lo = Some m' /\ only_in lo m m' /\ line_in m' lo /\
    forall i, 0 <= i < ba_width lo -> getValue m' lo i = getValue m l1 i.
Proof using Ho.
  intros H1 W1 S1. pose proof (line_words m lo Ho) as (P & E & O & L & W & Q).
  pose proof H1 as (_ & _ & I1). pose proof Ho as (_ & _ & Io).
  destruct (word_loop1_ok (fun a => a) l1 H1 W1 S1) as (m' & R & A & B & C); [tauto|].
  exists m'. split; [|split; [exact A|split; [exact B|]]].
  2:{ intros i Hi. rewrite C by exact Hi. rewrite line_bit; [reflexivity|exact H1|lia]. }
  rewrite <- R. unfold copyLine_bit, word_loop1. rewrite I1, Io, E. cbn [andb Z.eqb].
  assert (uint (ba_width lo / word_bits) = ba_width lo / 64) as ->.
  { unfold uint, word_bits. apply Z.mod_small. clear - W; lia. }
  assert (uint (ba_width lo - ba_width lo / 64 * word_bits) = ba_width lo mod 64) as ->.
  { unfold uint, word_bits. rewrite Z.mod_small by (clear - W; lia). clear; lia. }
  set (f := fun m i => match rd m (ba_int l1 + i) with Some a => wr m (ba_int lo + i) a | None => None end).
  destruct (Z.eqb_spec (ba_width lo mod 64) 0) as [Z0|Z0].
  - assert (row_words (ba_width lo) = ba_width lo / 64) as -> by (unfold row_words; clear - Z0; lia).
    destruct (fold_opt f _ m); reflexivity.
  - assert (row_words (ba_width lo) = ba_width lo / 64 + 1) as -> by (unfold row_words; clear - Z0; lia).
    rewrite zseq_succ by (clear - W; lia). rewrite fold_opt_app. cbn [fold_opt option_bind].
    destruct (fold_opt f _ m) as [m1|]; [cbn [option_bind fold_opt]|reflexivity].
    unfold f. destruct (rd m1 _); [destruct (wr _ _ _)|]; reflexivity.
Qed.
End Loops.

Lemma functor_word f a b : 0 <= a < 2 ^ 64 -> 0 <= b < 2 ^ 64 -> 0 <= bit_word f a b < 2 ^ 64.
Proof.
  intros Ha Hb. destruct f; cbn [bit_word];
    repeat (apply lor_word || apply land_word || apply lxor_word || apply mod_word || assumption).
Qed.

Lemma functor_bit f a b n : 0 <= n < 64 ->
  Z.b2z (Z.testbit (bit_word f a b) n) = bit_arith f (Z.b2z (Z.testbit a n)) (Z.b2z (Z.testbit b n)).
Proof.
  intros H. destruct f; cbn [bit_word];
    rewrite ?Z.lor_spec, ?Z.land_spec, ?Z.lxor_spec, ?not64_bit, ?Z.lxor_spec by exact H;
    destruct (Z.testbit a n), (Z.testbit b n); reflexivity.
Qed.
