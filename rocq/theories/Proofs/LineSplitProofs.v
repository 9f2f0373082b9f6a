From Verif Require Export Spec.LineSplitSpec Proofs.BitsProofs4.

Lemma ptrOffset_range vec a : vec_size vec -> 0 <= ptrOffset vec a < vec.
Proof.
  intros H. unfold ptrOffset.
  assert (exists n, vec = 2 ^ n /\ 0 <= n) as (n & -> & Hn).
  { destruct H as [-> | ->]; [exists 4|exists 5]; split; reflexivity || lia. }
  replace (2 ^ n - 1) with (Z.ones n) by (rewrite Z.ones_equiv; lia).
  rewrite Z.land_ones by exact Hn. apply Z.mod_pos_bound. apply Z.pow_pos_nonneg; lia.
Qed.

Lemma indices_two a n : 0 <= a -> 0 <= n -> indices [(0, a); (a, n)] = zseq (a + n).
Proof.
  intros Ha Hn. unfold indices. cbn [flat_map fst snd]. rewrite app_nil_r.
  pattern n. apply natlike_ind; [| |exact Hn].
  - rewrite (zseq_0 0), Z.add_0_r by lia. cbn. rewrite app_nil_r. rewrite <- (map_id (zseq a)) at 2. reflexivity.
  - intros q Hq IH. unfold Z.succ. rewrite (zseq_succ q), map_app, app_assoc, IH by lia.
    rewrite Z.add_assoc. rewrite (zseq_succ (a + q)) by lia. reflexivity.
Qed.

Lemma indices_one n : indices [(0, n)] = zseq n.
Proof. unfold indices. cbn [flat_map fst snd]. rewrite app_nil_r. rewrite <- (map_id (zseq n)) at 2. reflexivity. Qed.

Lemma fold_opt_map {A B C} (f : B -> C -> option B) (h : A -> C) l b :
  fold_opt f (map h l) b = fold_opt (fun b a => f b (h a)) l b.
Proof. revert b. induction l as [|a l IH]; intros b; [reflexivity|]. cbn. destruct (f b (h a)); auto. Qed.

Lemma exec_indices g calls out :
  exec_calls g calls out = fold_opt (fun out i => wr_word out i (g i)) (indices calls) out.
Proof.
  unfold exec_calls, indices. revert out. induction calls as [|c calls IH]; intros out; [reflexivity|].
  cbn [fold_opt flat_map]. rewrite fold_opt_app, fold_opt_map. unfold exec_range at 1.
  destruct (fold_opt _ _ out); [|reflexivity]. cbn [option_bind]. apply IH.
Qed.

(** Calls that cover the line run the functor on the whole line. *)
Lemma exec_pointwise g calls size out : indices calls = zseq size -> 0 <= size <= Z.of_nat (length out) ->
  (forall i, 0 <= i < size -> g i <> None) ->
  exists out', exec_calls g calls out = Some out' /\ pointwise g size out out'.
Proof.
  intros E Hs Hg. rewrite exec_indices, E.
  destruct (write_loop (fun _ i => g i) (fun i => i) (fun i => match g i with Some v => v | None => 0 end) size out)
    as (out' & R & L & V & K).
  - lia.
  - intros; lia.
  - tauto.
  - intros i mm Hi _ _. specialize (Hg i Hi). destruct (g i); [reflexivity|congruence].
  - exists out'. split; [exact R|]. split; [exact L|]. split.
    + intros i Hi. specialize (Hg i Hi). split; [|exact Hg]. rewrite V by exact Hi. destruct (g i); [reflexivity|congruence].
    + intros i Hi. apply K. intros j Hj ->. tauto.
Qed.

Lemma to_size_small z : 0 <= z < 2 ^ 64 -> to_size z = z.
Proof. apply Z.mod_small. Qed.

Lemma value_cover vec a size : vec_size vec -> 0 <= size < 2 ^ 64 -> indices (value_calls vec a size) = zseq size.
Proof.
  intros V Hs. unfold value_calls. pose proof (ptrOffset_range vec a V) as R.
  destruct (Z.ltb_spec size vec); [apply indices_one|].
  destruct (Z.eqb_spec (ptrOffset vec a) 0) as [O|O]; cbn [Z.eqb].
  - rewrite Z.sub_0_r, to_size_small by lia. apply indices_one.
  - destruct (Z.eqb_spec (vec - ptrOffset vec a) 0); [lia|]. cbn [app].
    rewrite to_size_small by lia. rewrite indices_two by lia. f_equal. lia.
Qed.

Lemma binary_value_cover vec a1 a2 size : vec_size vec -> 0 <= size < 2 ^ 64 -> indices (binary_value_calls vec a1 a2 size) = zseq size.
Proof.
  intros V Hs. unfold binary_value_calls. pose proof (ptrOffset_range vec a1 V) as R.
  destruct (Z.ltb_spec size vec); [apply indices_one|].
  destruct (_ && _); [apply indices_one|]. destruct (_ =? _); [|apply indices_one].
  rewrite to_size_small by lia. rewrite indices_two by lia. f_equal. lia.
Qed.

Lemma tertiary_cover vec a1 a2 a3 a4 size : vec_size vec -> 0 <= size < 2 ^ 64 -> indices (tertiary_calls vec a1 a2 a3 a4 size) = zseq size.
Proof.
  intros V Hs. unfold tertiary_calls. pose proof (ptrOffset_range vec a1 V) as R.
  destruct (Z.ltb_spec size vec); [apply indices_one|].
  destruct (_ && _); [apply indices_one|]. destruct (_ && _); [|apply indices_one].
  rewrite to_size_small by lia. rewrite indices_two by lia. f_equal. lia.
Qed.

Lemma unary_cover vec a1 a2 size : vec_size vec -> 0 <= size < 2 ^ 64 ->
  vec - ptrOffset vec a1 <= size \/ ptrOffset vec a1 = 0 \/ ptrOffset vec a1 <> ptrOffset vec a2 ->
  indices (unary_calls vec a1 a2 size) = zseq size.
Proof.
  intros V Hs C. unfold unary_calls. pose proof (ptrOffset_range vec a1 V) as R.
  destruct (Z.eqb_spec (ptrOffset vec a1) 0) as [O1|O1], (Z.eqb_spec (ptrOffset vec a2) 0) as [O2|O2]; cbn [andb];
    try apply indices_one; destruct (Z.eqb_spec (ptrOffset vec a1) (ptrOffset vec a2)) as [O3|O3]; try apply indices_one;
    try lia.
  rewrite to_size_small by lia. rewrite indices_two by lia. f_equal. lia.
Qed.

(** Running past the end of the output. *)
Lemma exec_past g out a n : 0 <= a -> 0 < n -> Z.of_nat (length out) < a + n -> exec_range g out (a, n) = None.
Proof.
  intros Ha Hn Hl. unfold exec_range. cbn [fst snd]. set (f := fun out i => _).
  assert (forall q, 0 <= q -> forall out', fold_opt f (zseq q) out = Some out' -> length out' = length out /\ (0 < q -> a + q <= Z.of_nat (length out))) as A.
  { intros q Hq. pattern q. apply natlike_ind; [| |exact Hq].
    - intros out' [= <-]. split; [reflexivity|lia].
    - intros k Hk IH out'. unfold Z.succ. rewrite zseq_succ by lia. rewrite fold_opt_app.
      destruct (fold_opt f (zseq k) out) as [o1|]; [|discriminate]. cbn [option_bind fold_opt].
      destruct (f o1 k) as [o2|] eqn:F; [|discriminate]. intros [= <-]. destruct (IH o1 eq_refl) as [L _].
      unfold f, wr_word in F. destruct (g (a + k)) as [v|]; [|discriminate].
      pose proof (wr_length _ _ _ _ F) as L2. split; [congruence|]. intros _.
      assert (~ (0 <= a + k < Z.of_nat (length o1)) -> False) as B.
      { intros N. rewrite (wr_None o1) in F by exact N. discriminate. }
      lia. }
  destruct (fold_opt f (zseq n) out) as [o'|] eqn:E; [|reflexivity].
  destruct (A n ltac:(lia) o' E) as [_ B]. specialize (B Hn). lia.
Qed.

(** *** testLine on bit lines *)

Lemma test_first m l1 l2 l3 lo s : line_in m l1 -> line_in m l2 -> line_in m l3 -> line_in m lo ->
  ba_width l1 = ba_width lo -> ba_width l2 = ba_width lo -> ba_width l3 = ba_width lo ->
  apart l1 lo -> apart l2 lo -> apart l3 lo -> 0 < s <= ba_width lo ->
  exists m1, testLine_bit m l1 l2 l3 s lo = Some m1 /\ only_in lo m m1.
Proof.
  intros H1 H2 H3 Ho W1 W2 W3 S1 S2 S3 Hs. pose proof (line_words m lo Ho) as (P & E & O & L & W & Q).
  unfold testLine_bit, word_loop3. rewrite INT_SIZE_row by lia.
  assert (0 < row_words s <= row_words (ba_width lo)) as RS by (unfold row_words in *; clear - Hs; lia).
  set (f := fun a b c => Z.lor (Z.land a b) (Z.land (not64 a) c)).
  destruct (write_loop (fun m i => match rd m (ba_int l1 + i), rd m (ba_int l2 + i), rd m (ba_int l3 + i) with Some a, Some b, Some c => Some (f a b c) | _, _, _ => None end)
              (fun i => ba_int lo + i) (fun i => f (wd m l1 i) (wd m l2 i) (wd m l3 i)) (row_words s) m)
    as (m' & R & Lm & V & K).
  - lia.
  - intros i Hi. lia.
  - intros i j _ _. lia.
  - intros i m1 Hi Lm K. assert (0 <= i < row_words (ba_width lo)) as Hi' by lia.
    rewrite (input_kept m m1 l1 lo i), (input_kept m m1 l2 lo i), (input_kept m m1 l3 lo i) by (try assumption; right; assumption). reflexivity.
  - exists m'. split.
    + rewrite <- R. apply fold_opt_ext. intros b a _.
      destruct (rd b (ba_int l1 + a)), (rd b (ba_int l2 + a)), (rd b (ba_int l3 + a)); reflexivity.
    + assert (forall k, 0 <= k < row_words s -> 0 <= f (wd m l1 k) (wd m l2 k) (wd m l3 k) < 2 ^ 64) as FW.
      { intros k Hk. unfold f. apply lor_word; apply land_word; try apply mod_word;
          (apply rd_wd; [assumption|]; rewrite ?W1, ?W2, ?W3; lia). }
      split; [exact Lm|]. split.
      * intros k w Ew. destruct (Z_lt_le_dec k (ba_int lo)) as [B|B].
        -- rewrite K in Ew by (intros; lia). destruct Ho as ((A & _) & _). eapply A. exact Ew.
        -- destruct (Z_lt_le_dec (k - ba_int lo) (row_words s)) as [C|C].
           ++ replace k with (ba_int lo + (k - ba_int lo)) in Ew by lia. rewrite V in Ew by lia.
              injection Ew as <-. apply FW. lia.
           ++ rewrite K in Ew by (intros; lia). destruct Ho as ((A & _) & _). eapply A. exact Ew.
      * destruct Ho as (_ & Eh & _). rewrite Eh, Z.mul_1_r. intros k Hk. apply K. intros j Hj. lia.
Qed.

Lemma apart_line m m' a lo : line_in m a -> line_in m lo -> apart a lo -> only_in lo m m' ->
  line_in m' a /\ forall i, 0 <= i < ba_width a -> getValue m' a i = getValue m a i.
Proof.
  intros Ha Ho S O. destruct Ha as (A & H1 & I1). destruct O as (L & W & K).
  split; [split; [apply (array_upd m); assumption|tauto]|].
  intros i Hi. apply (apart_get m m' lo a); [exact A| |split; [exact L|split; [exact W|exact K]]|rewrite H1; lia].
  destruct S; [right|left]; assumption.
Qed.
