(** C46 and C71: splitting a line at the alignment of its buffers; SSE functors. *)
From Verif Require Export Proofs.LineSplitProofs.

(** *** C46 *)

(** Whatever the addresses, the functors with a value, with two and with three input lines handle each index of the
    line exactly once and in order, and no other; they do to the line what the plain loop does. *)
Theorem C46_value vec a v size out : vec_size vec -> 0 <= size <= Z.of_nat (length out) -> size < 2 ^ 64 ->
  indices (value_calls vec a size) = zseq size /\
  exists out', run_value vec a v size out = Some out' /\ pointwise (fun _ => Some v) size out out'.
Proof.
  intros V Hs Hb. assert (indices (value_calls vec a size) = zseq size) as E by (apply value_cover; [exact V|lia]).
  split; [exact E|]. apply exec_pointwise; [exact E|exact Hs|discriminate].
Qed.
Print Assumptions C46_value.

Lemma in1_def f l1 i size : size <= Z.of_nat (length l1) -> 0 <= i < size -> in1 f l1 i <> None.
Proof. intros L Hi. unfold in1. destruct (rd_in_range l1 i) as [a ->]; [lia|]. discriminate. Qed.
Lemma in2_def f l1 l2 i size : size <= Z.of_nat (length l1) -> size <= Z.of_nat (length l2) -> 0 <= i < size -> in2 f l1 l2 i <> None.
Proof.
  intros L L2 Hi. unfold in2. destruct (rd_in_range l1 i) as [a ->]; [lia|].
  destruct (rd_in_range l2 i) as [b ->]; [lia|]. discriminate.
Qed.
Lemma in3_def f l1 l2 l3 i size : size <= Z.of_nat (length l1) -> size <= Z.of_nat (length l2) -> size <= Z.of_nat (length l3) ->
  0 <= i < size -> in3 f l1 l2 l3 i <> None.
Proof.
  intros L L2 L3 Hi. unfold in3. destruct (rd_in_range l1 i) as [a ->]; [lia|].
  destruct (rd_in_range l2 i) as [b ->]; [lia|]. destruct (rd_in_range l3 i) as [c ->]; [lia|]. discriminate.
Qed.

Theorem C46_binary vec a1 a2 a3 f l1 l2 size out : 0 <= size <= Z.of_nat (length out) ->
  size <= Z.of_nat (length l1) -> size <= Z.of_nat (length l2) ->
  indices (binary_calls vec a1 a2 a3 size) = zseq size /\
  exists out', run_binary vec a1 a2 a3 f l1 l2 size out = Some out' /\ pointwise (in2 f l1 l2) size out out'.
Proof.
  intros Hs L1 L2. assert (indices (binary_calls vec a1 a2 a3 size) = zseq size) as E by apply indices_one.
  split; [exact E|]. apply exec_pointwise; [exact E|exact Hs|]. intros i. apply in2_def; assumption.
Qed.
Print Assumptions C46_binary.

Theorem C46_binary_value vec a1 a2 f l1 v size out : vec_size vec -> 0 <= size <= Z.of_nat (length out) -> size < 2 ^ 64 ->
  size <= Z.of_nat (length l1) ->
  indices (binary_value_calls vec a1 a2 size) = zseq size /\
  exists out', run_binary_value vec a1 a2 f l1 v size out = Some out' /\ pointwise (in1 (fun a => f a v) l1) size out out'.
Proof.
  intros V Hs Hb L1.
  assert (indices (binary_value_calls vec a1 a2 size) = zseq size) as E by (apply binary_value_cover; [exact V|lia]).
  split; [exact E|]. apply exec_pointwise; [exact E|exact Hs|]. intros i. apply in1_def; assumption.
Qed.
Print Assumptions C46_binary_value.

Theorem C46_tertiary vec a1 a2 a3 a4 f l1 l2 l3 size out : vec_size vec -> 0 <= size <= Z.of_nat (length out) -> size < 2 ^ 64 ->
  size <= Z.of_nat (length l1) -> size <= Z.of_nat (length l2) -> size <= Z.of_nat (length l3) ->
  indices (tertiary_calls vec a1 a2 a3 a4 size) = zseq size /\
  exists out', run_tertiary vec a1 a2 a3 a4 f l1 l2 l3 size out = Some out' /\ pointwise (in3 f l1 l2 l3) size out out'.
Proof.
  intros V Hs Hb L1 L2 L3.
  assert (indices (tertiary_calls vec a1 a2 a3 a4 size) = zseq size) as E by (apply tertiary_cover; [exact V|lia]).
  split; [exact E|]. apply exec_pointwise; [exact E|exact Hs|]. intros i. apply in3_def; assumption.
Qed.
Print Assumptions C46_tertiary.

(** The functors with one input line: the same when the line reaches the alignment boundary (or the buffers are
    aligned, or aligned differently), ... *)
Theorem C46_unary_partial vec a1 a2 f l1 size out : vec_size vec -> 0 <= size <= Z.of_nat (length out) -> size < 2 ^ 64 ->
  size <= Z.of_nat (length l1) ->
  vec - ptrOffset vec a1 <= size \/ ptrOffset vec a1 = 0 \/ ptrOffset vec a1 <> ptrOffset vec a2 ->
  indices (unary_calls vec a1 a2 size) = zseq size /\
  exists out', run_unary vec a1 a2 f l1 size out = Some out' /\ pointwise (in1 f l1) size out out'.
Proof.
  intros V Hs Hb L1 C.
  assert (indices (unary_calls vec a1 a2 size) = zseq size) as E by (apply unary_cover; [exact V|lia|exact C]).
  split; [exact E|]. apply exec_pointwise; [exact E|exact Hs|]. intros i. apply in1_def; assumption.
Qed.
Print Assumptions C46_unary_partial.

(** ... and undefined in all the other cases: there is no test of the length, the number of remaining elements wraps
    around and the functor runs out of every buffer. *)
Theorem C46_unary_refuted vec a1 a2 f l1 size out : vec_size vec -> 0 <= size < vec - ptrOffset vec a1 ->
  ptrOffset vec a1 <> 0 -> ptrOffset vec a1 = ptrOffset vec a2 -> Z.of_nat (length out) < 2 ^ 63 ->
  run_unary vec a1 a2 f l1 size out = None.
Proof.
  intros V Hs N E L. pose proof (ptrOffset_range vec a1 V) as R. unfold run_unary, unary_calls.
  destruct (Z.eqb_spec (ptrOffset vec a1) 0); [lia|]. cbn [andb].
  destruct (Z.eqb_spec (ptrOffset vec a1) (ptrOffset vec a2)); [|lia].
  unfold exec_calls. cbn [fold_opt].
  destruct (exec_range (in1 f l1) out (0, vec - ptrOffset vec a1)) as [o1|] eqn:E1; [|reflexivity].
  assert (to_size (size - (vec - ptrOffset vec a1)) = size - (vec - ptrOffset vec a1) + 2 ^ 64) as T.
  { unfold to_size. rewrite <- (Z.mod_add _ 1) by lia. rewrite Z.mul_1_l. apply Z.mod_small.
    destruct V as [-> | ->]; lia. }
  rewrite T.
  assert (length o1 = length out) as L1.
  { unfold exec_range in E1. clear - E1. revert E1. generalize (zseq (snd (0, vec - ptrOffset vec a1))). intros l.
    revert out. induction l as [|i l IH]; intros out; cbn [fold_opt]; [intros [= <-]; reflexivity|].
    destruct (wr_word _ _ _) as [o|] eqn:W; [|discriminate]. intros H. apply IH in H. rewrite H.
    unfold wr_word in W. destruct (in1 f l1 _); [|discriminate]. eapply wr_length. exact W. }
  rewrite exec_past; [reflexivity|lia| |rewrite L1]; destruct V as [-> | ->]; lia.
Qed.
Print Assumptions C46_unary_refuted.

(** Lines of 20 elements at addresses that are 5 bytes after a multiple of 16; a line of 7 elements there. *)
Example C46_case : vec_size 16 /\ ptrOffset 16 1029 = 5 /\ ptrOffset 16 2053 = 5 /\
  unary_calls 16 1029 2053 20 = [(0, 11); (11, 9)] /\
  tertiary_calls 16 1029 2053 4101 8192 20 = [(0, 11); (11, 9)] /\ value_calls 16 1029 20 = [(0, 11); (11, 9)] /\
  run_unary 16 1029 2053 (fun a => a * a) (zseq 20) 20 (repeat 7 21) = Some (map (fun a => a * a) (zseq 20) ++ [7]) /\
  unary_calls 16 1029 2053 7 = [(0, 11); (11, 2 ^ 64 - 4)].
Proof. split; [left; reflexivity|]. vm_compute. repeat split. Qed.

(** On bit lines the split moves the index of the arrays, which the functor on words does not look at: the result is
    right when the last word of the line holds more than SIMD_VEC_SIZE bits and the output is none of the inputs, ... *)
Theorem C46_bits_partial vec base m l1 l2 l3 lo : vec_size vec ->
  line_in m l1 -> line_in m l2 -> line_in m l3 -> line_in m lo ->
  ba_width l1 = ba_width lo -> ba_width l2 = ba_width lo -> ba_width l3 = ba_width lo ->
  apart l1 lo -> apart l2 lo -> apart l3 lo ->
  vec < ba_width lo - 64 * (row_words (ba_width lo) - 1) ->
  exists m', run_test_bit vec base m l1 l2 l3 (ba_width lo) lo = Some m' /\ only_in lo m m' /\
    forall i, 0 <= i < ba_width lo -> exists a b c,
      getValue m l1 i = Some a /\ getValue m l2 i = Some b /\ getValue m l3 i = Some c /\
      getValue m' lo i = Some (if a then b else c).
Proof.
  intros V H1 H2 H3 Ho W1 W2 W3 S1 S2 S3 HW.
  pose proof (line_words m lo Ho) as (P & E & O & L & W & Q).
  assert (FULL : forall m, line_in m l1 -> line_in m l2 -> line_in m l3 -> line_in m lo ->
    exists m', testLine_bit m l1 l2 l3 (ba_width lo) lo = Some m' /\ only_in lo m m' /\
    forall i, 0 <= i < ba_width lo -> exists a b c,
      getValue m l1 i = Some a /\ getValue m l2 i = Some b /\ getValue m l3 i = Some c /\
      getValue m' lo i = Some (if a then b else c)).
  { intros mm I1 I2 I3 Io.
    destruct (word_loop3_ok mm lo Io (fun a b c => Z.lor (Z.land a b) (Z.land (not64 a) c)) l1 l2 l3)
      as (m' & E1 & O1 & _ & V1); try assumption; try (right; assumption).
    { intros. apply lor_word; apply land_word; try assumption. apply mod_word. }
    exists m'. split; [exact E1|]. split; [exact O1|]. intros i Hi. do 3 eexists.
    split; [apply line_bit; [exact I1|lia]|]. split; [apply line_bit; [exact I2|lia]|].
    split; [apply line_bit; [exact I3|lia]|]. rewrite V1 by exact Hi. f_equal.
    rewrite Z.lor_spec, !Z.land_spec, not64_bit by (apply Z.mod_pos_bound; lia).
    destruct (Z.testbit (wd mm l1 (i / 64)) (i mod 64)); cbn [andb negb orb]; [apply orb_false_r|reflexivity]. }
  assert (ONE : exists m', fold_opt (fun m c => testLine_bit m (ba_at l1 (fst c)) (ba_at l2 (fst c)) (ba_at l3 (fst c)) (snd c) (ba_at lo (fst c))) [(0, ba_width lo)] m = Some m' /\ only_in lo m m' /\
    forall i, 0 <= i < ba_width lo -> exists a b c,
      getValue m l1 i = Some a /\ getValue m l2 i = Some b /\ getValue m l3 i = Some c /\
      getValue m' lo i = Some (if a then b else c)).
  { destruct (FULL m H1 H2 H3 Ho) as (m' & E1 & R). exists m'. split; [|exact R]. cbn [fold_opt fst snd].
    change (testLine_bit m (ba_at l1 0) (ba_at l2 0) (ba_at l3 0) (ba_width lo) (ba_at lo 0))
      with (testLine_bit m l1 l2 l3 (ba_width lo) lo). rewrite E1. reflexivity. }
  unfold run_test_bit, tertiary_calls. destruct (_ <? vec); [exact ONE|]. destruct (_ && _ && _ && _); [exact ONE|].
  destruct (_ && _); [|exact ONE]. clear ONE.
  pose proof (ptrOffset_range vec (base + 8 * ba_int l1) V) as R. set (mis := vec - ptrOffset vec (base + 8 * ba_int l1)) in *.
  assert (0 < mis <= vec) as M by (unfold mis; clear - R; lia).
  destruct (test_first m l1 l2 l3 lo mis H1 H2 H3 Ho W1 W2 W3 S1 S2 S3) as (m1 & E1 & O1); [clear - M HW P; lia|].
  destruct (apart_line m m1 l1 lo H1 Ho S1 O1) as [I1 G1].
  destruct (apart_line m m1 l2 lo H2 Ho S2 O1) as [I2 G2].
  destruct (apart_line m m1 l3 lo H3 Ho S3 O1) as [I3 G3].
  assert (line_in m1 lo) as Io.
  { destruct O1 as (Lm & Wm & _). destruct Ho as (A & B & C). split; [apply (array_upd m); assumption|tauto]. }
  destruct (FULL m1 I1 I2 I3 Io) as (m2 & E2 & O2 & V2).
  exists m2. split; [|split].
  - cbn [fold_opt fst snd].
    change (testLine_bit m (ba_at l1 0) (ba_at l2 0) (ba_at l3 0) mis (ba_at lo 0)) with (testLine_bit m l1 l2 l3 mis lo).
    rewrite E1.
    change (testLine_bit m1 (ba_at l1 mis) (ba_at l2 mis) (ba_at l3 mis) (to_size (ba_width lo - mis)) (ba_at lo mis))
      with (testLine_bit m1 l1 l2 l3 (to_size (ba_width lo - mis)) lo).
    rewrite to_size_small by (clear - M HW P W; lia).
    assert (testLine_bit m1 l1 l2 l3 (ba_width lo - mis) lo = testLine_bit m1 l1 l2 l3 (ba_width lo) lo) as ->.
    { unfold testLine_bit, word_loop3.
      rewrite !INT_SIZE_row by (clear - M W HW P; lia).
      assert (row_words (ba_width lo - mis) = row_words (ba_width lo)) as ->; [|reflexivity].
      unfold row_words in *. clear - M HW Q. lia. }
    rewrite E2. reflexivity.
  - destruct O1 as (Lm1 & Wm1 & K1), O2 as (Lm2 & Wm2 & K2). split; [congruence|]. split; [exact Wm2|].
    intros k Hk. rewrite K2, K1 by exact Hk. reflexivity.
  - intros i Hi. destruct (V2 i Hi) as (a & b & c & A & B & C & D). exists a, b, c.
    rewrite <- G1, <- G2, <- G3 by lia. tauto.
Qed.
Print Assumptions C46_bits_partial.

(** ... and wrong otherwise: in lines of 130 bits that are 8 bytes after a multiple of 16, the third word is not
    written. *)
Definition mem16 := [0; 2 ^ 64 - 1; 2 ^ 64 - 1; 3; 0; 2 ^ 64 - 1; 2 ^ 64 - 1; 3; 0; 0; 0; 0; 0; 0; 0; 0].
Theorem C46_bits_refuted : let l k := BA k 0 130 1 in
  line_in mem16 (l 1) /\ line_in mem16 (l 5) /\ line_in mem16 (l 9) /\ line_in mem16 (l 13) /\
  apart (l 1) (l 13) /\ apart (l 5) (l 13) /\ apart (l 9) (l 13) /\
  getValue mem16 (l 1) 129 = Some true /\ getValue mem16 (l 5) 129 = Some true /\
  exists m', run_test_bit 16 0 mem16 (l 1) (l 5) (l 9) 130 (l 13) = Some m' /\ getValue m' (l 13) 129 = Some false.
Proof.
  intros l. assert (all_words mem16) as A.
  { intros k w E. pose proof (rd_Some_range _ _ _ E) as R. cbn in R. apply rd_In in E.
    vm_compute in E. decompose [or] E; subst; try lia; contradiction. }
  assert (forall k, 0 <= k <= 13 -> line_in mem16 (l k)) as L.
  { intros k Hk. split; [|split; reflexivity]. split; [exact A|]. cbn. lia. }
  split; [apply L; lia|]. split; [apply L; lia|]. split; [apply L; lia|]. split; [apply L; lia|].
  split; [left; cbn; lia|]. split; [left; cbn; lia|]. split; [left; cbn; lia|].
  split; [reflexivity|]. split; [reflexivity|]. eexists. split; vm_compute; reflexivity.
Qed.
Print Assumptions C46_bits_refuted.

(** *** C71: SSE functors on UINT8 *)

Lemma lane_generic f a b : 0 <= a < 256 -> 0 <= b < 256 -> sse_lane f a b = sse_generic f a b.
Proof.
  intros Ha Hb. destruct f; cbn [sse_lane sse_generic]; unfold px_add, px_addNoSat, px_sub, px_subNoSat, px_sup, px_inf, tmax, tmin, wrap; cbn [is_signed nbits];
    repeat match goal with |- context [if ?c then _ else _] => destruct c eqn:? end; lia.
Qed.
Lemma scalar_generic f a b : f <> sSub -> 0 <= a < 256 -> 0 <= b < 256 -> sse_scalar f a b = sse_generic f a b.
Proof.
  intros N Ha Hb. destruct f; [| |congruence| | |]; cbn [sse_scalar sse_generic]; unfold px_add, px_addNoSat, px_sub, px_subNoSat, px_sup, px_inf, tmax, tmin, wrap; cbn [is_signed nbits];
    repeat match goal with |- context [if ?c then _ else _] => destruct c eqn:? end; lia.
Qed.

Lemma in2_ext (P : Z -> Prop) f g l1 l2 i : (forall a b, P a -> P b -> f a b = g a b) ->
  (forall i v, rd l1 i = Some v -> P v) -> (forall i v, rd l2 i = Some v -> P v) -> in2 f l1 l2 i = in2 g l1 l2 i.
Proof.
  intros E A B. unfold in2. destruct (rd l1 i) eqn:E1; [|reflexivity]. destruct (rd l2 i) eqn:E2; [|reflexivity].
  f_equal. apply E; [eapply A|eapply B]; eassumption.
Qed.

Lemma exec_range_ext g g' out c : (forall i, g i = g' i) -> exec_range g out c = exec_range g' out c.
Proof. intros E. unfold exec_range. apply fold_opt_ext. intros b i _. rewrite E. reflexivity. Qed.

Lemma all_some_ok {A} (l : list (option A)) : (forall i o, rd l i = Some o -> o <> None) ->
  exists vs, all_some l = Some vs /\ length vs = length l /\ forall i, rd vs i = match rd l i with Some o => o | None => None end.
Proof.
  induction l as [|o l IH]; intros H.
  - exists []. repeat split. intros i. unfold rd. destruct (0 <=? i); [destruct (Z.to_nat i)|]; reflexivity.
  - destruct o as [a|]; [|exfalso; apply (H 0 None); reflexivity].
    destruct IH as (vs & E & L & V).
    { intros i o Hi. apply (H (i + 1)). pose proof (rd_Some_range _ _ _ Hi) as R. unfold rd in *.
      destruct (Z.leb_spec 0 i); [|discriminate]. destruct (Z.leb_spec 0 (i + 1)); [|lia].
      replace (Z.to_nat (i + 1)) with (S (Z.to_nat i)) by lia. exact Hi. }
    exists (a :: vs). cbn [all_some]. rewrite E. split; [reflexivity|]. split; [cbn; congruence|].
    intros i. specialize (V (i - 1)). unfold rd in *. destruct (Z.leb_spec 0 i); [|reflexivity].
    destruct (Z.to_nat i) as [|k] eqn:K; [reflexivity|]. cbn [nth_error].
    destruct (Z.leb_spec 0 (i - 1)); [|lia]. replace (Z.to_nat (i - 1)) with k in V by lia. exact V.
Qed.

Lemma sse_vector_range f l1 l2 out i size : 0 <= i -> i + 16 <= size -> size <= Z.of_nat (length l1) -> size <= Z.of_nat (length l2) ->
  sse_vector f l1 l2 out i = exec_range (in2 (sse_lane f) l1 l2) out (i, 16).
Proof.
  intros Hi Hs L1 L2. unfold sse_vector.
  destruct (all_some_ok (map (fun j => in2 (sse_lane f) l1 l2 (i + j)) (zseq 16))) as (vs & -> & L & V).
  { intros k o. rewrite rd_map. destruct (rd (zseq 16) k) as [j|] eqn:E; [|discriminate]. intros [= <-].
    apply rd_In in E. apply zseq_In in E. apply (in2_def _ _ _ _ size); lia. }
  unfold exec_range. cbn [fst snd]. apply fold_opt_ext. intros b j Hj. apply zseq_In in Hj.
  rewrite V, rd_map, rd_zseq by lia. reflexivity.
Qed.

Lemma indices_vectors K n : 0 <= K -> 0 <= n -> indices (map (fun k => (16 * k, 16)) (zseq K) ++ [(16 * K, n)]) = zseq (16 * K + n).
Proof.
  intros HK Hn. unfold indices. rewrite flat_map_app. cbn [flat_map fst snd]. rewrite app_nil_r.
  assert (flat_map (fun c => map (fun i => fst c + i) (zseq (snd c))) (map (fun k => (16 * k, 16)) (zseq K)) = zseq (16 * K)) as ->.
  { pattern K. apply natlike_ind; [reflexivity| |exact HK]. intros q Hq IH. unfold Z.succ.
    rewrite zseq_succ, map_app, flat_map_app, IH by lia. cbn [map flat_map fst snd]. rewrite app_nil_r.
    replace (16 * (q + 1)) with (16 * q + 16) by lia. rewrite <- (indices_two (16 * q) 16) by lia.
    unfold indices. cbn [flat_map fst snd]. rewrite app_nil_r. f_equal. rewrite <- (map_id (zseq (16 * q))) at 1. reflexivity. }
  rewrite <- (indices_two (16 * K) n) by lia. unfold indices. cbn [flat_map fst snd]. rewrite app_nil_r.
  f_equal. rewrite <- (map_id (zseq (16 * K))) at 1. reflexivity.
Qed.

(** On aligned lines of bytes of any length, the vector loop followed by the loop on the remaining elements computes the
    generic functor on every element, and touches nothing else: proved for all the functors but the saturated
    difference, ... *)
Theorem C71_sse_partial vec f l1 l2 size out : vec_size vec -> f <> sSub -> bytes l1 -> bytes l2 ->
  0 <= size <= Z.of_nat (length out) -> size <= Z.of_nat (length l1) -> size <= Z.of_nat (length l2) ->
  exists out', sse_exec_aligned vec f l1 l2 size out = Some out' /\ pointwise (in2 (sse_generic f) l1 l2) size out out'.
Proof.
  intros V N B1 B2 Hs L1 L2. set (g := in2 (sse_generic f) l1 l2).
  assert (0 < vec) as Vp by (destruct V; lia).
  pose proof (Z.mod_pos_bound size vec Vp) as M.
  assert (exists K, size - size mod vec = 16 * K /\ 0 <= K) as (K & EK & HK).
  { assert (size - size mod vec = vec * (size / vec)) as E0 by (pose proof (Z.div_mod size vec); lia).
    assert (0 <= size / vec) by (apply Z.div_pos; lia).
    destruct V as [-> | ->]; [exists (size / 16)|exists (2 * (size / 32))]; split; try lia. }
  assert (sse_exec_aligned vec f l1 l2 size out = exec_calls g (map (fun k => (16 * k, 16)) (zseq K) ++ [(16 * K, size mod vec)]) out) as ->.
  { unfold sse_exec_aligned, exec_calls. rewrite EK. replace ((16 * K + 15) / 16) with K by lia.
    rewrite fold_opt_app, fold_opt_map.
    assert (fold_opt (fun out k => sse_vector f l1 l2 out (16 * k)) (zseq K) out = fold_opt (fun b a => exec_range g b (16 * a, 16)) (zseq K) out) as ->.
    { apply fold_opt_ext. intros b k Hk. apply zseq_In in Hk. rewrite (sse_vector_range f l1 l2 b (16 * k) size) by lia.
      apply exec_range_ext. intros i. apply (in2_ext (fun a => 0 <= a < 256)); [intros; apply lane_generic; assumption|exact B1|exact B2]. }
    destruct (fold_opt _ (zseq K) out) as [o1|]; [|reflexivity]. cbn [option_bind fold_opt].
    rewrite (exec_range_ext _ g).
    - destruct (exec_range g o1 _); reflexivity.
    - intros i. apply (in2_ext (fun a => 0 <= a < 256)); [intros; apply scalar_generic; assumption|exact B1|exact B2]. }
  apply exec_pointwise; [rewrite indices_vectors by (exact HK || apply M); f_equal; revert EK; generalize (size mod vec); intros; lia|exact Hs|].
  intros i Hi. apply (in2_def _ _ _ _ size); assumption.
Qed.
Print Assumptions C71_sse_partial.

(** ... for which the loop on the remaining elements compares with 255 + b, modulo 256, instead of b: 9 - 0 is 0 there, and
    9 in the vectors. *)
Theorem C71_sub_refuted : exists out', sse_exec_aligned 16 sSub (repeat 9 17) (repeat 0 17) 17 (repeat 7 17) = Some out' /\
  rd out' 15 = Some 9 /\ rd out' 16 = Some 0 /\ in2 (sse_generic sSub) (repeat 9 17) (repeat 0 17) 16 = Some 9.
Proof. eexists. split; [vm_compute; reflexivity|]. vm_compute. repeat split. Qed.
Print Assumptions C71_sub_refuted.

Example C71_case : bytes (map (fun i => 12 * i) (zseq 20)) /\ bytes (repeat 100 20) /\
  sse_exec_aligned 16 sAdd (map (fun i => 12 * i) (zseq 20)) (repeat 100 20) 20 (repeat 7 21) =
  Some [100; 112; 124; 136; 148; 160; 172; 184; 196; 208; 220; 232; 244; 255; 255; 255; 255; 255; 255; 255; 7].
Proof.
  split; [|split; [|vm_compute; reflexivity]].
  - intros i v E. apply rd_In in E. apply in_map_iff in E. destruct E as (j & <- & Hj). apply zseq_In in Hj. clear - Hj.
    change (0 <= 12 * j < 256). lia.
  - intros i v E. apply rd_In in E. apply repeat_spec in E. lia.
Qed.
