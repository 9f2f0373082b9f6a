(** Bit arrays. *)
From Verif Require Export Spec.BitsSpec.
From Verif Require Export Proofs.PreludeFacts.

(** *** Words *)

Lemma word_bound w : 0 <= w -> (forall n, 64 <= n -> Z.testbit w n = false) -> 0 <= w < 2 ^ 64.
Proof.
  intros H0 H. split; [exact H0|].
  assert (w = w mod 2 ^ 64) as E.
  { apply Z.bits_inj'. intros n Hn. destruct (Z_lt_le_dec n 64).
    - rewrite Z.mod_pow2_bits_low by lia. reflexivity.
    - rewrite Z.mod_pow2_bits_high by lia. apply H. lia. }
  rewrite E. apply Z.mod_pos_bound. reflexivity.
Qed.

Lemma word_high w n : 0 <= w < 2 ^ 64 -> 64 <= n -> Z.testbit w n = false.
Proof.
  intros H Hn. rewrite <- (Z.mod_small w (2 ^ 64)) by exact H.
  apply Z.mod_pow2_bits_high. lia.
Qed.

Lemma mod_word z : 0 <= z mod 2 ^ 64 < 2 ^ 64.
Proof. apply Z.mod_pos_bound. reflexivity. Qed.

Lemma not64_bit w n : 0 <= n < 64 -> Z.testbit (not64 w) n = negb (Z.testbit w n).
Proof.
  intros H. unfold not64. rewrite Z.mod_pow2_bits_low by lia. apply Z.lnot_spec. lia.
Qed.

Lemma lor_word a b : 0 <= a < 2 ^ 64 -> 0 <= b < 2 ^ 64 -> 0 <= Z.lor a b < 2 ^ 64.
Proof.
  intros Ha Hb. apply word_bound; [apply Z.lor_nonneg; lia|].
  intros n Hn. rewrite Z.lor_spec, !word_high by assumption. reflexivity.
Qed.
Lemma land_word a b : 0 <= a < 2 ^ 64 -> 0 <= b < 2 ^ 64 -> 0 <= Z.land a b < 2 ^ 64.
Proof.
  intros Ha Hb. apply word_bound; [apply Z.land_nonneg; lia|].
  intros n Hn. rewrite Z.land_spec, !word_high by assumption. reflexivity.
Qed.
Lemma lxor_word a b : 0 <= a < 2 ^ 64 -> 0 <= b < 2 ^ 64 -> 0 <= Z.lxor a b < 2 ^ 64.
Proof.
  intros Ha Hb. apply word_bound; [apply Z.lxor_nonneg; lia|].
  intros n Hn. rewrite Z.lxor_spec, !word_high by assumption. reflexivity.
Qed.

Lemma one_bit x n : 0 <= x -> 0 <= n -> Z.testbit (Z.shiftl 1 x) n = (n =? x).
Proof.
  intros Hx Hn. rewrite Z.shiftl_spec by lia.
  destruct (Z.eqb_spec n x) as [->|N].
  - rewrite Z.sub_diag. reflexivity.
  - destruct (Z_lt_le_dec n x); [rewrite Z.testbit_neg_r by lia; reflexivity|].
    apply Z.bits_above_log2; [lia|]. cbn. lia.
Qed.

Lemma one_word x : 0 <= x < 64 -> 0 <= Z.shiftl 1 x < 2 ^ 64.
Proof.
  intros H. apply word_bound; [apply Z.shiftl_nonneg; lia|].
  intros n Hn. rewrite one_bit by lia. lia.
Qed.

Lemma test_mask w x : 0 <= x -> negb (Z.land w (Z.shiftl 1 x) =? 0) = Z.testbit w x.
Proof.
  intros Hx. destruct (Z.testbit w x) eqn:E.
  - destruct (Z.eqb_spec (Z.land w (Z.shiftl 1 x)) 0) as [Z0|]; [|reflexivity].
    assert (Z.testbit (Z.land w (Z.shiftl 1 x)) x = false) as F by (rewrite Z0; apply Z.bits_0).
    rewrite Z.land_spec, one_bit, E, Z.eqb_refl in F by lia. discriminate.
  - assert (Z.land w (Z.shiftl 1 x) = 0) as ->; [|reflexivity].
    apply Z.bits_inj'. intros n Hn. rewrite Z.land_spec, one_bit, Z.bits_0 by lia.
    destruct (Z.eqb_spec n x) as [->|]; [rewrite E|]; apply andb_false_r || reflexivity.
Qed.

(** *** Places *)

Lemma row_words_pos w : 0 < w -> 0 < row_words w /\ w <= 64 * row_words w < w + 64.
Proof. unfold row_words. lia. Qed.

Lemma INT_SIZE_row w : 0 < w < 2 ^ 32 -> INT_SIZE w = row_words w.
Proof.
  intros H. unfold INT_SIZE, uint, row_words, word_bits.
  rewrite (Z.mod_small w) by lia. rewrite (Z.mod_small (w - 1)) by lia.
  rewrite Z.mod_small by lia. lia.
Qed.

Lemma array_small m a : array_in m a ->
  0 < ba_width a < 2 ^ 32 /\ 0 < ba_height a <= 2 ^ 26 /\ 0 < row_words (ba_width a) <= 2 ^ 26.
Proof.
  intros (_ & W & H & S & _). pose proof (row_words_pos _ (proj1 W)) as [P Q].
  assert (row_words (ba_width a) <= row_words (ba_width a) * ba_height a) by nia.
  assert (ba_height a <= row_words (ba_width a) * ba_height a) by nia.
  lia.
Qed.

Lemma intWidth_row m a : array_in m a -> intWidth a = row_words (ba_width a).
Proof. intros H. apply INT_SIZE_row. apply (array_small m). exact H. Qed.

Lemma pad_row m a : array_in m a -> getBitPadX a = 64 * row_words (ba_width a) - ba_width a.
Proof.
  intros H. unfold getBitPadX. rewrite (intWidth_row m) by exact H.
  destruct (array_small m a H) as (W & _ & R).
  pose proof (row_words_pos _ (proj1 W)) as [_ Q].
  unfold to_size, uint, word_bits.
  rewrite (Z.mod_small _ (2 ^ 64)) by lia. rewrite Z.mod_small by lia. lia.
Qed.

Lemma place m a i : array_in m a -> 0 <= i < ba_width a * ba_height a ->
  bit_place a i =
  Some (i / ba_width a * row_words (ba_width a) + i mod ba_width a / 64, i mod ba_width a mod 64).
Proof.
  intros H Hi. unfold bit_place. rewrite (pad_row m) by exact H.
  destruct (array_small m a H) as (W & Hh & R). destruct H as (_ & _ & _ & S & _).
  pose proof (row_words_pos _ (proj1 W)) as [P Q].
  set (w := ba_width a) in *. set (h := ba_height a) in *. set (r := row_words w) in *.
  destruct (Z.eqb_spec w 0); [lia|].
  assert (0 <= i / w < h) as Y by (split; [apply Z.div_pos; lia|apply Z.div_lt_upper_bound; lia]).
  assert (0 <= i mod w < w) as X by (apply Z.mod_pos_bound; lia).
  pose proof (Z.div_mod i w n) as E.
  assert (w * h <= 2 ^ 32) as B by (clear - Q S Hh; nia).
  assert (uint i = i) as U by (unfold uint; apply Z.mod_small; clear - B Hi; lia).
  rewrite U.
  assert (to_int (i / w) = i / w) as T.
  { unfold to_int. rewrite Z.mod_small by (clear - Y Hh; lia). lia. }
  rewrite T.
  set (y := i / w) in *. set (x := i mod w) in *.
  assert (y * (64 * r - w) = 64 * (y * r) - w * y) as E1 by ring.
  assert (y * r + r <= r * h) as E2 by (clear - Y P; nia).
  assert (0 <= y * r) as E3 by (clear - Y P; nia).
  assert (0 <= w * y) as E4 by (clear - Y W; nia).
  assert (0 <= y * (64 * r - w)) as E5 by (clear - Y Q; nia).
  assert (uint (y * (64 * r - w)) = y * (64 * r - w)) as ->.
  { unfold uint. apply Z.mod_small. clear - E1 E2 E3 E4 E5 S P. lia. }
  assert (i + y * (64 * r - w) = 64 * (y * r) + x) as -> by (clear - E E1; lia).
  assert (uint (64 * (y * r) + x) = 64 * (y * r) + x) as ->.
  { unfold uint. apply Z.mod_small. clear - E2 E3 S X Q. lia. }
  assert (uint (y * w) = y * w) as ->.
  { unfold uint. apply Z.mod_small. clear - E Hi B X E4. lia. }
  assert (uint (i - y * w) = x) as ->.
  { unfold uint. rewrite Z.mod_small by (clear - E X W; lia). clear - E; lia. }
  unfold word_bits. f_equal. f_equal.
  assert ((64 * (y * r) + x) / 64 = y * r + x / 64) as ->.
  { rewrite (Z.mul_comm 64), Z.add_comm, Z.div_add by lia. lia. }
  unfold to_int. rewrite Z.mod_small; [lia|].
  assert (0 <= x / 64 < r) by (clear - X Q; lia). clear - H E2 E3 S. lia.
Qed.

(** The word and the bit of an index. *)
Definition word_at (a : bitarr) (i : Z) : Z :=
  ba_int a + (i / ba_width a * row_words (ba_width a) + i mod ba_width a / 64).
Definition bit_at (a : bitarr) (i : Z) : Z := i mod ba_width a mod 64.

Lemma word_at_range m a i : array_in m a -> 0 <= i < ba_width a * ba_height a ->
  ba_int a <= word_at a i < ba_int a + row_words (ba_width a) * ba_height a /\
  0 <= word_at a i < Z.of_nat (length m) /\ 0 <= bit_at a i < 64.
Proof.
  intros H Hi. destruct (array_small m a H) as (W & Hh & R).
  destruct H as (_ & _ & _ & S & O & L).
  pose proof (row_words_pos _ (proj1 W)) as [P Q]. unfold word_at, bit_at.
  set (w := ba_width a) in *. set (h := ba_height a) in *. set (r := row_words w) in *.
  assert (0 <= i / w < h) as Y by (split; [apply Z.div_pos; lia|apply Z.div_lt_upper_bound; lia]).
  assert (0 <= i mod w < w) as X by (apply Z.mod_pos_bound; lia).
  assert (0 <= i mod w / 64 < r) by (clear - X Q; lia).
  assert (i / w * r + r <= r * h) by (clear - Y P; nia).
  assert (0 <= i / w * r) by (clear - Y P; nia).
  pose proof (Z.mod_pos_bound (i mod w) 64 ltac:(lia)).
  clear - H H0 H1 H2 O L. lia.
Qed.

Lemma word_at_inj m a i j : array_in m a ->
  0 <= i < ba_width a * ba_height a -> 0 <= j < ba_width a * ba_height a ->
  word_at a i = word_at a j -> bit_at a i = bit_at a j -> i = j.
Proof.
  intros H Hi Hj. destruct (array_small m a H) as (W & Hh & R).
  pose proof (row_words_pos _ (proj1 W)) as [P Q]. unfold word_at, bit_at.
  set (w := ba_width a) in *. set (r := row_words w) in *.
  intros E F.
  pose proof (Z.mod_pos_bound i w ltac:(lia)) as X1. pose proof (Z.mod_pos_bound j w ltac:(lia)) as X2.
  assert (0 <= i mod w / 64 < r) as D1 by (clear - X1 Q; lia).
  assert (0 <= j mod w / 64 < r) as D2 by (clear - X2 Q; lia).
  assert (i / w = j / w) as G by (clear - E D1 D2; nia).
  rewrite G in E.
  assert (i mod w / 64 = j mod w / 64) as G2 by (clear - E; lia).
  pose proof (Z.div_mod i w ltac:(lia)). pose proof (Z.div_mod j w ltac:(lia)).
  pose proof (Z.div_mod (i mod w) 64 ltac:(lia)). pose proof (Z.div_mod (j mod w) 64 ltac:(lia)).
  rewrite G in H0. clear - H0 H1 H2 H3 F G2. rewrite G2, F in H2. lia.
Qed.

Lemma get_bit m a i : array_in m a -> 0 <= i < ba_width a * ba_height a ->
  getValue m a i = option_map (fun w => Z.testbit w (bit_at a i)) (rd m (word_at a i)).
Proof.
  intros H Hi. unfold getValue. rewrite (place m) by assumption. fold (bit_at a i).
  destruct (word_at_range m a i H Hi) as (_ & _ & B). unfold word_at.
  destruct (rd m _); [|reflexivity]. cbn [option_map]. f_equal. apply test_mask. lia.
Qed.

Lemma get_defined m a i : array_in m a -> 0 <= i < ba_width a * ba_height a ->
  exists b, getValue m a i = Some b.
Proof.
  intros H Hi. rewrite get_bit by assumption.
  destruct (word_at_range m a i H Hi) as (_ & R & _).
  destruct (rd_in_range m _ R) as [w ->]. cbn. eauto.
Qed.

Lemma array_upd m m' a : array_in m a -> length m' = length m -> all_words m' -> array_in m' a.
Proof. intros H L W. unfold array_in in *. rewrite L. tauto. Qed.

Lemma set_bit m a i v : array_in m a -> 0 <= i < ba_width a * ba_height a ->
  exists m', setValue m a i v = Some m' /\ only_in a m m' /\ array_in m' a /\
    (forall k, k <> word_at a i -> rd m' k = rd m k) /\
    exists w w', rd m (word_at a i) = Some w /\ rd m' (word_at a i) = Some w' /\
      forall n, 0 <= n < 64 -> Z.testbit w' n = if n =? bit_at a i then v else Z.testbit w n.
Proof.
  intros H Hi. unfold setValue. rewrite (place m) by assumption. fold (bit_at a i).
  destruct (word_at_range m a i H Hi) as (R0 & R & B).
  change (ba_int a + (i / ba_width a * row_words (ba_width a) + i mod ba_width a / 64)) with (word_at a i).
  destruct (rd_in_range m _ R) as [w E]. rewrite E.
  assert (0 <= w < 2 ^ 64) as Ww by (destruct H as (A & _); eapply A; exact E).
  set (w' := if v then _ else _).
  destruct (wr_Some m (word_at a i) w' R) as [m' E'].
  assert (0 <= w' < 2 ^ 64) as Ww'.
  { unfold w'. destruct v.
    - apply lor_word; [exact Ww|apply one_word; exact B].
    - apply land_word; [exact Ww|apply mod_word]. }
  assert (length m' = length m) as L by (eapply wr_length; exact E').
  assert (forall k, rd m' k = if k =? word_at a i then Some w' else rd m k) as G.
  { intros k. rewrite (rd_wr _ _ _ _ k E'). destruct (Z.eqb_spec k (word_at a i)), (Z.eqb_spec (word_at a i) k); try congruence; lia. }
  assert (all_words m') as AW.
  { intros k u. rewrite G. destruct (Z.eqb_spec k (word_at a i)).
    - intros [= <-]. exact Ww'.
    - destruct H as (A & _). apply A. }
  exists m'. split; [exact E'|]. split; [|split; [|split]].
  - split; [exact L|]. split; [exact AW|]. intros k Hk. rewrite G.
    destruct (Z.eqb_spec k (word_at a i)); [lia|reflexivity].
  - apply (array_upd m); assumption.
  - intros k N. rewrite G. destruct (Z.eqb_spec k (word_at a i)); [congruence|reflexivity].
  - exists w, w'. rewrite G, Z.eqb_refl. split; [reflexivity || exact E|split; [reflexivity|]].
    intros n Hn. unfold w'. destruct v.
    + rewrite Z.lor_spec, one_bit by lia. destruct (n =? bit_at a i); [apply orb_true_r|apply orb_false_r].
    + rewrite Z.land_spec, not64_bit, one_bit by lia.
      destruct (n =? bit_at a i); [apply andb_false_r|apply andb_true_r].
Qed.

Theorem set_get m a i v : array_in m a -> 0 <= i < ba_width a * ba_height a ->
  exists m', setValue m a i v = Some m' /\ only_in a m m' /\ array_in m' a /\
    forall j, 0 <= j < ba_width a * ba_height a ->
      getValue m' a j = if j =? i then Some v else getValue m a j.
Proof.
  intros H Hi. destruct (set_bit m a i v H Hi) as (m' & E & O & H' & K & w & w' & R & R' & T).
  exists m'. split; [exact E|split; [exact O|split; [exact H'|]]]. intros j Hj.
  rewrite (get_bit m') by assumption. rewrite (get_bit m) by assumption.
  destruct (word_at_range m a j H Hj) as (_ & _ & Bj).
  destruct (Z.eq_dec (word_at a j) (word_at a i)) as [W|W].
  - rewrite W, R, R'. cbn [option_map]. rewrite T by exact Bj.
    destruct (Z.eqb_spec (bit_at a j) (bit_at a i)) as [Bt|Bt].
    + rewrite (word_at_inj m a j i H Hj Hi W Bt), Z.eqb_refl. reflexivity.
    + destruct (Z.eqb_spec j i); [subst; congruence|reflexivity].
  - rewrite K by exact W. destruct (Z.eqb_spec j i); [subst; congruence|reflexivity].
Qed.

(** An array apart from the one that changes keeps its bits. *)
Lemma apart_get m m' a b j : array_in m b -> apart a b -> only_in a m m' ->
  0 <= j < ba_width b * ba_height b -> getValue m' b j = getValue m b j.
Proof.
  intros H D (L & W & K) Hj.
  rewrite (get_bit m) by assumption. rewrite (get_bit m') by (try assumption; apply (array_upd m); assumption).
  destruct (word_at_range m b j H Hj) as (R & _). rewrite K; [reflexivity|].
  destruct D; lia.
Qed.
