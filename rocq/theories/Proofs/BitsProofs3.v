(** Shifts of bit lines. *)
From Verif Require Export Proofs.BitsProofs2.

Lemma merge_left_ok a l b : 0 < l < 64 -> 0 <= a < 2 ^ 64 -> 0 <= b < 2 ^ 64 ->
  exists w, merge_left a l b (64 - l) = Some w /\ 0 <= w < 2 ^ 64 /\
    forall x, 0 <= x < 64 ->
      Z.testbit w x = if x <? l then Z.testbit b (x + 64 - l) else Z.testbit a (x - l).
Proof.
  intros H Ha Hb. unfold merge_left, shl64, shr64.
  destruct (Z.leb_spec 0 l); [|lia]. destruct (Z.ltb_spec l 64); [|lia].
  destruct (Z.leb_spec 0 (64 - l)); [|lia]. destruct (Z.ltb_spec (64 - l) 64); [|lia].
  cbn [andb]. eexists. split; [reflexivity|]. split.
  - apply lor_word; [apply mod_word|]. apply word_bound; [apply Z.shiftr_nonneg; lia|].
    intros n Hn. rewrite Z.shiftr_spec by lia. apply word_high; lia.
  - intros x Hx. rewrite Z.lor_spec, Z.mod_pow2_bits_low, Z.shiftl_spec, Z.shiftr_spec by lia.
    destruct (Z.ltb_spec x l).
    + rewrite (Z.testbit_neg_r a) by lia. cbn [orb]. f_equal. lia.
    + rewrite (word_high b) by lia. apply orb_false_r.
Qed.

Lemma merge_right_ok a r b : 0 < r < 64 -> 0 <= a < 2 ^ 64 -> 0 <= b < 2 ^ 64 ->
  exists w, merge_right a r b (64 - r) = Some w /\ 0 <= w < 2 ^ 64 /\
    forall x, 0 <= x < 64 ->
      Z.testbit w x = if x + r <? 64 then Z.testbit a (x + r) else Z.testbit b (x + r - 64).
Proof.
  intros H Ha Hb. unfold merge_right, shl64, shr64.
  destruct (Z.leb_spec 0 r); [|lia]. destruct (Z.ltb_spec r 64); [|lia].
  destruct (Z.leb_spec 0 (64 - r)); [|lia]. destruct (Z.ltb_spec (64 - r) 64); [|lia].
  cbn [andb]. eexists. split; [reflexivity|]. split.
  - apply lor_word; [|apply mod_word]. apply word_bound; [apply Z.shiftr_nonneg; lia|].
    intros n Hn. rewrite Z.shiftr_spec by lia. apply word_high; lia.
  - intros x Hx. rewrite Z.lor_spec, Z.mod_pow2_bits_low, Z.shiftl_spec, Z.shiftr_spec by lia.
    destruct (Z.ltb_spec (x + r) 64).
    + rewrite (Z.testbit_neg_r b) by lia. apply orb_false_r.
    + rewrite (word_high a) by lia. cbn [orb]. f_equal. lia.
Qed.

(** The words computed, as functions. *)
Definition merged_left (a l b : Z) : Z :=
  match merge_left a l b (64 - l) with Some w => w | None => 0 end.
Definition merged_right (a r b : Z) : Z :=
  match merge_right a r b (64 - r) with Some w => w | None => 0 end.

Lemma merged_left_ok a l b : 0 < l < 64 -> 0 <= a < 2 ^ 64 -> 0 <= b < 2 ^ 64 ->
  merge_left a l b (64 - l) = Some (merged_left a l b) /\ 0 <= merged_left a l b < 2 ^ 64 /\
  forall x, 0 <= x < 64 ->
    Z.testbit (merged_left a l b) x = if x <? l then Z.testbit b (x + 64 - l) else Z.testbit a (x - l).
Proof.
  intros. destruct (merge_left_ok a l b) as (w & E & R); try assumption.
  unfold merged_left. rewrite E. split; [reflexivity|exact R].
Qed.
Lemma merged_right_ok a r b : 0 < r < 64 -> 0 <= a < 2 ^ 64 -> 0 <= b < 2 ^ 64 ->
  merge_right a r b (64 - r) = Some (merged_right a r b) /\ 0 <= merged_right a r b < 2 ^ 64 /\
  forall x, 0 <= x < 64 ->
    Z.testbit (merged_right a r b) x =
    if x + r <? 64 then Z.testbit a (x + r) else Z.testbit b (x + r - 64).
Proof.
  intros. destruct (merge_right_ok a r b) as (w & E & R); try assumption.
  unfold merged_right. rewrite E. split; [reflexivity|exact R].
Qed.

Section Shift.
Variables (m : list Z) (l1 lo : bitarr).
Hypothesis H1 : line_in m l1.
Hypothesis Ho : line_in m lo.
Hypothesis W1 : ba_width l1 = ba_width lo.
Hypothesis S1 : apart l1 lo.

Notation n := (row_words (ba_width lo)).
Notation o := (ba_int lo).
Notation p := (ba_int l1).

Lemma apart_words i j : 0 <= i < n -> 0 <= j < n -> p + i <> o + j.
Proof using H1 Ho W1 S1.
  destruct H1 as (_ & E1 & _), Ho as (_ & Eo & _). unfold apart in S1. rewrite E1, Eo, W1 in S1.
  clear - S1. lia.
Qed.

Lemma in_word m' i : (forall k, (forall j, 0 <= j < n -> k <> o + j) -> rd m' k = rd m k) ->
  0 <= i < n -> rd m' (p + i) = Some (wd m l1 i) /\ 0 <= wd m l1 i < 2 ^ 64.
Proof using H1 Ho W1 S1.
  intros K Hi. rewrite K; [apply rd_wd; [exact H1|rewrite W1; exact Hi]|].
  intros j Hj. apply apart_words; assumption.
Qed.

(** Steps that write only words of the output. *)
Definition outside_same (m' : list Z) : Prop :=
  length m' = length m /\ forall k, (forall j, 0 <= j < n -> k <> o + j) -> rd m' k = rd m k.

Lemma left_ok dx border : 0 < dx < ba_width lo -> dx < 2 ^ 31 -> ba_width lo < 2 ^ 31 -> dx mod 64 <> 0 ->
  exists m', bitShiftLeft m l1 dx (ba_width lo) lo border = Some m' /\ only_in lo m m' /\ line_in m' lo /\
    forall i, 0 <= i < ba_width lo ->
      getValue m' lo i = if i <? dx then Some border else getValue m l1 (i - dx).
Proof using H1 Ho W1 S1.
  intros Hdx _ Hw Hr. pose proof (line_words m lo Ho) as (P & E & O & L & W & Q).
  unfold bitShiftLeft. rewrite E. unfold word_bits.
  set (q := dx / 64). set (r := dx mod 64) in *.
  assert (dx = 64 * q + r /\ 0 <= q /\ 0 < r < 64) as (D & Q0 & R) by (clear - Hdx Hr; subst q r; lia).
  assert (q < n) as Qn by (clear - D Q0 R Hdx Q; lia).
  assert (uint q = q) as -> by (unfold uint; apply Z.mod_small; clear - Qn Q W Q0; lia).
  assert (to_int (ba_width lo) = ba_width lo) as ->.
  { unfold to_int. rewrite Z.mod_small by (clear - W Hw; lia). lia. }
  destruct (Z.leb_spec (ba_width lo) dx); [lia|]. clear H.
  destruct (write_loop (fun m i => Some (word_of border)) (fun i => o + i) (fun i => word_of border) q m)
    as (m1 & F1 & L1 & V1 & K1);
    [exact Q0|intros i Hi; clear - Hi Qn O L; lia|intros; lia|reflexivity|].
  change (fold_opt (fun m i => wr m (o + i) (word_of border)) (zseq q) m = Some m1) in F1. rewrite F1.
  assert (forall k, (forall j, 0 <= j < n -> k <> o + j) -> rd m1 k = rd m k) as O1.
  { intros k Hk. apply K1. intros j Hj. apply Hk. clear - Hj Qn; lia. }
  destruct (in_word m1 0 O1) as [I0 Z0]; [clear - P; lia|]. rewrite Z.add_0_r in I0. rewrite I0.
  fold r.
  destruct (merged_left_ok (wd m l1 0) r (word_of border) R Z0 (word_of_word border)) as (M0 & MW0 & MB0).
  rewrite M0. cbn [wr_word].
  destruct (wr_Some m1 (o + q) (merged_left (wd m l1 0) r (word_of border))) as [m2 F2];
    [rewrite L1; clear - Q0 Qn O L; lia|]. rewrite F2.
  assert (length m2 = length m) as L2 by (rewrite (wr_length _ _ _ _ F2); exact L1).
  assert (forall k, rd m2 k = if o + q =? k then Some (merged_left (wd m l1 0) r (word_of border)) else rd m1 k) as V2
    by (intros k; apply (rd_wr _ _ _ _ k F2)).
  assert (forall k, (forall j, 0 <= j < n -> k <> o + j) -> rd m2 k = rd m k) as O2.
  { intros k Hk. rewrite V2. destruct (Z.eqb_spec (o + q) k) as [Z|Z]; [|apply O1; exact Hk].
    exfalso. apply (Hk q); [clear - Q0 Qn; lia|congruence]. }
  destruct (write_loop
    (fun m j => match rd m (p + 1 + j), rd m (p + 1 + j - 1) with
                | Some a, Some b => merge_left a r b (64 - r) | _, _ => None end)
    (fun j => o + q + 1 + j) (fun j => merged_left (wd m l1 (1 + j)) r (wd m l1 j)) (n - (q + 1)) m2)
    as (m3 & F3 & L3 & V3 & K3).
  { clear - Qn; lia. }
  { intros i Hi. rewrite L2. clear - Hi Q0 Qn O L. lia. }
  { intros; lia. }
  { intros i mm Hi Lm K. 
    assert (forall k, (forall j, 0 <= j < n -> k <> o + j) -> rd mm k = rd m k) as Om.
    { intros k Hk. rewrite K; [apply O2; exact Hk|]. intros j Hj. 
      replace (o + q + 1 + j) with (o + (q + 1 + j)) by lia. apply Hk. clear - Hj Hi Q0. lia. }
    destruct (in_word mm (1 + i) Om) as [A1 B1]; [clear - Hi Q0 Qn; lia|].
    destruct (in_word mm i Om) as [A2 B2]; [clear - Hi Q0 Qn; lia|].
    replace (p + 1 + i) with (p + (1 + i)) by lia. rewrite A1.
    replace (p + (1 + i) - 1) with (p + i) by lia. rewrite A2.
    apply merged_left_ok; assumption. }
  exists m3.
  set (vals := fun k => if k <? q then word_of border
                        else if k =? q then merged_left (wd m l1 0) r (word_of border)
                        else merged_left (wd m l1 (k - q)) r (wd m l1 (k - q - 1))).
  assert (forall k, 0 <= k < n -> 0 <= wd m l1 k < 2 ^ 64) as WW.
  { intros k Hk. apply rd_wd; [exact H1|rewrite W1; exact Hk]. }
  destruct (line_result m m3 lo vals Ho) as (A & B & C).
  - congruence.
  - intros k Hk. unfold vals. destruct (Z.ltb_spec k q); [|destruct (Z.eqb_spec k q) as [e|n0]].
    + split; [|apply word_of_word]. rewrite K3 by (intros; clear - H Hk H0; lia).
      rewrite V2. destruct (Z.eqb_spec (o + q) (o + k)); [clear - e H; lia|].
      apply V1. clear - H Hk; lia.
    + subst k. split; [|apply MW0]. rewrite K3 by (intros; clear - H0; lia).
      rewrite V2, Z.eqb_refl. reflexivity.
    + split.
      * replace (o + k) with (o + q + 1 + (k - q - 1)) by lia. rewrite V3 by (clear - H n0 Hk; lia).
        do 2 f_equal. f_equal. lia.
      * apply merged_left_ok; [exact R|apply WW|apply WW]; clear - H n0 Hk Q0; lia.
  - intros k Hk. rewrite K3; [apply O2; exact Hk|].
    intros j Hj. replace (o + q + 1 + j) with (o + (q + 1 + j)) by lia. apply Hk. clear - Hj Q0; lia.
  - split; [|split; [exact A|split; [exact B|]]].
    + rewrite <- F3. apply fold_opt_ext. intros b j _. fold r.
      destruct (rd b (p + 1 + j)), (rd b (p + 1 + j - 1)); reflexivity.
    + intros i Hi. rewrite C by exact Hi.
      set (x := i mod 64). set (k := i / 64).
      assert (i = 64 * k + x /\ 0 <= x < 64 /\ 0 <= k < n) as (I & X & KN)
        by (clear - Hi Q; subst x k; lia).
      assert (forall u v, 0 <= u -> 0 <= v < 64 -> 64 * u + v < ba_width lo ->
                getValue m l1 (64 * u + v) = Some (Z.testbit (wd m l1 u) v)) as G.
      { intros u v Hu Hv Huv. rewrite line_bit; [|exact H1|rewrite W1; lia].
        assert ((64 * u + v) / 64 = u) as -> by (clear - Hv; lia).
        assert ((64 * u + v) mod 64 = v) as -> by (clear - Hv; lia). reflexivity. }
      unfold vals. destruct (Z.ltb_spec k q); [|destruct (Z.eqb_spec k q) as [e|n0]].
      * rewrite word_of_bit by exact X. destruct (Z.ltb_spec i dx); [reflexivity|clear - I D X R H H0; lia].
      * rewrite MB0 by exact X. destruct (Z.ltb_spec x r), (Z.ltb_spec i dx); try (clear - I D X R H H0 H2 e; lia).
        -- rewrite word_of_bit; [reflexivity|clear - H0 X R; lia].
        -- replace (i - dx) with (64 * 0 + (x - r)) by (clear - I D e; lia).
           rewrite G by (clear - I D X R H0 e Hi Q0; lia). reflexivity.
      * destruct (merged_left_ok (wd m l1 (k - q)) r (wd m l1 (k - q - 1)) R) as (_ & _ & MB);
          [apply WW; clear - H n0 KN Q0; lia|apply WW; clear - H n0 KN Q0; lia|].
        rewrite MB by exact X. destruct (Z.ltb_spec i dx); [clear - H H0 I D X R n0; lia|].
        destruct (Z.ltb_spec x r).
        -- replace (i - dx) with (64 * (k - q - 1) + (x + 64 - r)) by (clear - I D; lia).
           rewrite G by (clear - I D X R H n0 H2 Hi Q0; lia). reflexivity.
        -- replace (i - dx) with (64 * (k - q) + (x - r)) by (clear - I D; lia).
           rewrite G by (clear - I D X R H n0 H2 Hi Q0; lia). reflexivity.
Qed.
Lemma right_ok dx border : 0 < dx < ba_width lo -> ba_width lo < 2 ^ 31 -> dx mod 64 <> 0 ->
  ba_width lo mod 64 = 0 \/ (border = false /\ dx mod 64 + (64 * n - ba_width lo) < 64) ->
  exists m', bitShiftRight m l1 dx (ba_width lo) lo border = Some m' /\ only_in lo m m' /\ line_in m' lo /\
    forall i, 0 <= i < ba_width lo ->
      getValue m' lo i = if i + dx <? ba_width lo then getValue m l1 (i + dx) else Some border.
Proof using H1 Ho W1 S1.
  intros Hdx Hw Hr HB. pose proof (line_words m lo Ho) as (P & E & O & L & W & Q).
  unfold bitShiftRight. rewrite E. pose proof H1 as (AR1 & _). rewrite (pad_row m l1 AR1). rewrite W1.
  unfold word_bits. clear AR1.
  set (pad := 64 * n - ba_width lo) in *.
  set (q := dx / 64). set (r := dx mod 64) in *.
  assert (dx = 64 * q + r /\ 0 <= q /\ 0 < r < 64) as (D & Q0 & R) by (clear - Hdx Hr; subst q r; lia).
  assert (0 <= pad < 64 /\ r + pad < 64 /\ (border = true -> pad = 0)) as (PD & RP & BP).
  { destruct HB as [HB|[HB HC]].
    - assert (pad = 0) as ->; [|clear - R; lia]. subst pad. clear - HB Q. lia.
    - split; [subst pad; clear - Q; lia|]. split; [exact HC|]. rewrite HB. discriminate. }
  assert (q < n) as Qn by (clear - D Q0 R Hdx Q; lia).
  assert (uint (uint (dx + pad) / 64) = q) as ->.
  { unfold uint. rewrite (Z.mod_small (dx + pad)) by (clear - Hdx W PD Hw; lia).
    assert ((dx + pad) / 64 = q) as -> by (clear - D RP R PD; lia).
    apply Z.mod_small. clear - Qn Q W Q0; lia. }
  assert (to_int (ba_width lo) = ba_width lo) as ->.
  { unfold to_int. rewrite Z.mod_small by (clear - W Hw; lia). lia. }
  destruct (Z.leb_spec (ba_width lo) dx); [lia|]. clear H.
  destruct (write_loop (fun m i => Some (word_of border)) (fun i => o + n - 1 - i) (fun i => word_of border) q m)
    as (m1 & F1 & L1 & V1 & K1);
    [exact Q0|intros i Hi; clear - Hi Qn O L; lia|intros; lia|reflexivity|].
  change (fold_opt (fun m i => wr m (o + n - 1 - i) (word_of border)) (zseq q) m = Some m1) in F1. rewrite F1.
  assert (forall k, (forall j, 0 <= j < n -> k <> o + j) -> rd m1 k = rd m k) as O1.
  { intros k Hk. apply K1. intros j Hj. replace (o + n - 1 - j) with (o + (n - 1 - j)) by lia.
    apply Hk. clear - Hj Qn; lia. }
  destruct (in_word m1 (n - 1) O1) as [I0 Z0]; [clear - P; lia|].
  replace (p + (n - 1)) with (p + n - 1) in I0 by lia. rewrite I0.
  assert (shr64 (word_of true) pad = Some (Z.shiftr (word_of true) pad)) as ->.
  { unfold shr64. destruct (Z.leb_spec 0 pad), (Z.ltb_spec pad 64); try (clear - PD H H0; lia). reflexivity. }
  set (mask := Z.shiftr (word_of true) pad).
  assert (forall x, 0 <= x -> Z.testbit mask x = (x + pad <? 64)) as MK.
  { intros x Hx. unfold mask. rewrite Z.shiftr_spec by exact Hx. unfold word_of.
    change (2 ^ 64 - 1) with (Z.ones 64). destruct (Z.ltb_spec (x + pad) 64).
    - apply Z.ones_spec_low. clear - Hx PD H; lia.
    - apply Z.ones_spec_high. clear - H; lia. }
  set (last := Z.land (wd m l1 (n - 1)) mask).
  assert (0 <= last < 2 ^ 64) as LW.
  { unfold last. apply land_word; [exact Z0|]. apply word_bound.
    - unfold mask. apply Z.shiftr_nonneg. apply word_of_word.
    - intros b Hb. rewrite MK by (clear - Hb; lia). destruct (Z.ltb_spec (b + pad) 64); [clear - H Hb PD; lia|reflexivity]. }
  assert (forall x, 0 <= x -> Z.testbit last x = Z.testbit (wd m l1 (n - 1)) x && (x + pad <? 64)) as LB.
  { intros x Hx. unfold last. rewrite Z.land_spec, MK by exact Hx. reflexivity. }
  destruct (merged_right_ok last r (word_of border) R LW (word_of_word border)) as (M0 & MW0 & MB0).
  rewrite M0. cbn [wr_word].
  destruct (wr_Some m1 (o + n - 1 - q) (merged_right last r (word_of border))) as [m2 F2];
    [rewrite L1; clear - Q0 Qn O L; lia|]. rewrite F2.
  assert (length m2 = length m) as L2 by (rewrite (wr_length _ _ _ _ F2); exact L1).
  assert (forall k, rd m2 k = if o + n - 1 - q =? k then Some (merged_right last r (word_of border)) else rd m1 k) as V2
    by (intros k; apply (rd_wr _ _ _ _ k F2)).
  assert (forall k, (forall j, 0 <= j < n -> k <> o + j) -> rd m2 k = rd m k) as O2.
  { intros k Hk. rewrite V2. destruct (Z.eqb_spec (o + n - 1 - q) k) as [Z|Z]; [|apply O1; exact Hk].
    exfalso. apply (Hk (n - 1 - q)); [clear - Q0 Qn; lia|clear - Z; lia]. }
  assert (forall k, 0 <= k < n -> 0 <= wd m l1 k < 2 ^ 64) as WW.
  { intros k Hk. apply rd_wd; [exact H1|rewrite W1; exact Hk]. }
  set (vals := fun k => if n - 1 - q <? k then word_of border
                        else if k =? n - 1 - q then merged_right last r (word_of border)
                        else if k =? n - 2 - q then merged_right (wd m l1 (n - 2)) r last
                        else merged_right (wd m l1 (k + q)) r (wd m l1 (k + q + 1))).
  assert (forall u v, 0 <= u -> 0 <= v < 64 -> 64 * u + v < ba_width lo ->
            getValue m l1 (64 * u + v) = Some (Z.testbit (wd m l1 u) v)) as G.
  { intros u v Hu Hv Huv. rewrite line_bit; [|exact H1|rewrite W1; lia].
    assert ((64 * u + v) / 64 = u) as -> by (clear - Hv; lia).
    assert ((64 * u + v) mod 64 = v) as -> by (clear - Hv; lia). reflexivity. }
  assert (forall i, 0 <= i < ba_width lo ->
    Some (Z.testbit (vals (i / 64)) (i mod 64)) =
    if i + dx <? ba_width lo then getValue m l1 (i + dx) else Some border) as BITS.
  { intros i Hi. set (x := i mod 64). set (k := i / 64).
    assert (i = 64 * k + x /\ 0 <= x < 64 /\ 0 <= k < n) as (I & X & KN) by (clear - Hi Q; subst x k; lia).
    unfold vals. destruct (Z.ltb_spec (n - 1 - q) k) as [C1|C1];
      [|destruct (Z.eqb_spec k (n - 1 - q)) as [C2|C2]; [|destruct (Z.eqb_spec k (n - 2 - q)) as [C3|C3]]].
    - rewrite word_of_bit by exact X. destruct (Z.ltb_spec (i + dx) (ba_width lo)); [|reflexivity].
      clear - C1 I D X R H Q. lia.
    - rewrite MB0 by exact X. destruct (Z.ltb_spec (x + r) 64) as [C|C].
      + rewrite LB by (clear - X R; lia).
        destruct (Z.ltb_spec (x + r + pad) 64) as [B|B], (Z.ltb_spec (i + dx) (ba_width lo)) as [T|T];
          try (exfalso; unfold pad in B; clear - B T I D C2; lia).
        * rewrite andb_true_r. replace (i + dx) with (64 * (n - 1) + (x + r)) by (clear - I D C2; lia).
          rewrite G by (unfold pad in B; clear - B X R C P; lia). reflexivity.
        * rewrite andb_false_r. destruct border; [|reflexivity]. specialize (BP eq_refl).
          clear - BP C B. lia.
      + destruct (Z.ltb_spec (i + dx) (ba_width lo)) as [T|T]; [clear - T I D C2 C Q; lia|].
        rewrite word_of_bit by (clear - C X R; lia). reflexivity.
    - destruct (merged_right_ok (wd m l1 (n - 2)) r last R) as (_ & _ & MB);
        [apply WW; clear - C3 KN Q0; lia|exact LW|].
      rewrite MB by exact X. destruct (Z.ltb_spec (x + r) 64) as [C|C].
      + destruct (Z.ltb_spec (i + dx) (ba_width lo)) as [T|T]; [|clear - T I D C3 C Q; lia].
        replace (i + dx) with (64 * (n - 2) + (x + r)) by (clear - I D C3; lia).
        rewrite G by (clear - C3 KN Q0 X R C Q; lia). reflexivity.
      + rewrite LB by (clear - C; lia).
        destruct (Z.ltb_spec (x + r - 64 + pad) 64) as [B|B]; [|clear - B RP X R; lia].
        rewrite andb_true_r.
        destruct (Z.ltb_spec (i + dx) (ba_width lo)) as [T|T];
          [|unfold pad in B; clear - B T I D C3; lia].
        replace (i + dx) with (64 * (n - 1) + (x + r - 64)) by (clear - I D C3; lia).
        rewrite G by (unfold pad in B; clear - C3 KN Q0 X R C Q B; lia). reflexivity.
    - destruct (merged_right_ok (wd m l1 (k + q)) r (wd m l1 (k + q + 1)) R) as (_ & _ & MB);
        [apply WW; clear - C1 C2 C3 KN Q0; lia|apply WW; clear - C1 C2 C3 KN Q0; lia|].
      rewrite MB by exact X.
      destruct (Z.ltb_spec (i + dx) (ba_width lo)) as [T|T]; [|clear - T I D C1 C2 C3 X R Q; lia].
      destruct (Z.ltb_spec (x + r) 64) as [C|C].
      + replace (i + dx) with (64 * (k + q) + (x + r)) by (clear - I D; lia).
        rewrite G by (clear - C1 C2 C3 KN Q0 X R C Q; lia). reflexivity.
      + replace (i + dx) with (64 * (k + q + 1) + (x + r - 64)) by (clear - I D; lia).
        rewrite G by (clear - C1 C2 C3 KN Q0 X R C Q; lia). reflexivity. }
  assert (forall k, n - 1 - q < k < n -> rd m2 (o + k) = Some (word_of border)) as VB.
  { intros k Hk. rewrite V2. destruct (Z.eqb_spec (o + n - 1 - q) (o + k)) as [e|e]; [clear - e Hk; lia|].
    replace (o + k) with (o + n - 1 - (n - 1 - k)) by lia. apply V1. clear - Hk. lia. }
  destruct (Z.ltb_spec (q + 1) n) as [C|C].
  2:{ exists m2. destruct (line_result m m2 lo vals Ho L2) as (A & B & CC).
      - intros k Hk. unfold vals. destruct (Z.ltb_spec (n - 1 - q) k) as [C1|C1].
        + split; [apply VB; clear - C1 Hk; lia|apply word_of_word].
        + destruct (Z.eqb_spec k (n - 1 - q)) as [C2|C2]; [|clear - C1 C2 C Hk Qn; lia].
          split; [|exact MW0]. rewrite V2. destruct (Z.eqb_spec (o + n - 1 - q) (o + k)) as [e|e]; [reflexivity|clear - e C2; lia].
      - exact O2.
      - split; [reflexivity|]. split; [exact A|]. split; [exact B|]. intros i Hi.
        rewrite CC by exact Hi. apply BITS. exact Hi. }
  destruct (in_word m2 (n - 2) O2) as [I2 Z2]; [clear - C Q0; lia|].
  replace (p + (n - 2)) with (p + n - 1 - 1) in I2 by lia. rewrite I2.
  destruct (merged_right_ok (wd m l1 (n - 2)) r last R Z2 LW) as (M1 & MW1 & _).
  rewrite M1. cbn [wr_word].
  destruct (wr_Some m2 (o + n - 1 - q - 1) (merged_right (wd m l1 (n - 2)) r last)) as [m3 F3];
    [rewrite L2; clear - Q0 C O L; lia|]. rewrite F3.
  assert (length m3 = length m) as L3 by (rewrite (wr_length _ _ _ _ F3); exact L2).
  assert (forall k, rd m3 k = if o + n - 1 - q - 1 =? k then Some (merged_right (wd m l1 (n - 2)) r last) else rd m2 k) as V3
    by (intros k; apply (rd_wr _ _ _ _ k F3)).
  assert (forall k, (forall j, 0 <= j < n -> k <> o + j) -> rd m3 k = rd m k) as O3.
  { intros k Hk. rewrite V3. destruct (Z.eqb_spec (o + n - 1 - q - 1) k) as [Z|Z]; [|apply O2; exact Hk].
    exfalso. apply (Hk (n - 1 - q - 1)); [clear - Q0 C; lia|clear - Z; lia]. }
  destruct (write_loop
    (fun m j => match rd m (p + n - 1 - 2 - j), rd m (p + n - 1 - 2 - j + 1) with
                | Some a, Some b => merge_right a r b (64 - r) | _, _ => None end)
    (fun j => o + n - 1 - q - 2 - j)
    (fun j => merged_right (wd m l1 (n - 3 - j)) r (wd m l1 (n - 2 - j))) (n - (q + 2)) m3)
    as (m4 & F4 & L4 & V4 & K4).
  { clear - C; lia. }
  { intros i Hi. rewrite L3. clear - Hi Q0 C O L. lia. }
  { intros; lia. }
  { intros i mm Hi Lm K.
    assert (forall k, (forall j, 0 <= j < n -> k <> o + j) -> rd mm k = rd m k) as Om.
    { intros k Hk. rewrite K; [apply O3; exact Hk|]. intros j Hj.
      replace (o + n - 1 - q - 2 - j) with (o + (n - 1 - q - 2 - j)) by lia. apply Hk. clear - Hj Hi Q0. lia. }
    destruct (in_word mm (n - 3 - i) Om) as [A1 B1]; [clear - Hi Q0 C; lia|].
    destruct (in_word mm (n - 2 - i) Om) as [A2 B2]; [clear - Hi Q0 C; lia|].
    replace (p + n - 1 - 2 - i) with (p + (n - 3 - i)) by lia. rewrite A1.
    replace (p + (n - 3 - i) + 1) with (p + (n - 2 - i)) by lia. rewrite A2.
    apply merged_right_ok; assumption. }
  exists m4. destruct (line_result m m4 lo vals Ho) as (A & B & CC).
  - congruence.
  - intros k Hk. unfold vals. destruct (Z.ltb_spec (n - 1 - q) k) as [C1|C1];
      [|destruct (Z.eqb_spec k (n - 1 - q)) as [C2|C2]; [|destruct (Z.eqb_spec k (n - 2 - q)) as [C3|C3]]].
    + split; [|apply word_of_word]. rewrite K4 by (intros j Hj; clear - Hj C1; lia).
      rewrite V3. destruct (Z.eqb_spec (o + n - 1 - q - 1) (o + k)) as [e|e]; [clear - e C1; lia|].
      apply VB. clear - C1 Hk; lia.
    + split; [|exact MW0]. rewrite K4 by (intros j Hj; clear - Hj C2; lia).
      rewrite V3. destruct (Z.eqb_spec (o + n - 1 - q - 1) (o + k)) as [e|e]; [clear - e C2; lia|].
      rewrite V2. destruct (Z.eqb_spec (o + n - 1 - q) (o + k)) as [e2|e2]; [reflexivity|clear - e2 C2; lia].
    + split; [|exact MW1]. rewrite K4 by (intros j Hj; clear - Hj C3; lia).
      rewrite V3. destruct (Z.eqb_spec (o + n - 1 - q - 1) (o + k)) as [e|e]; [reflexivity|clear - e C3; lia].
    + split.
      * replace (o + k) with (o + n - 1 - q - 2 - (n - 3 - q - k)) by lia.
        rewrite V4 by (clear - C1 C2 C3 Hk; lia). do 2 f_equal; f_equal; lia.
      * apply merged_right_ok; [exact R|apply WW|apply WW]; clear - C1 C2 C3 Hk Q0; lia.
  - intros k Hk. rewrite K4; [apply O3; exact Hk|].
    intros j Hj. replace (o + n - 1 - q - 2 - j) with (o + (n - 1 - q - 2 - j)) by lia.
    apply Hk. clear - Hj Q0; lia.
  - split; [|split; [exact A|split; [exact B|]]].
    + rewrite <- F4. apply fold_opt_ext. intros b j _.
      destruct (rd b (p + n - 1 - 2 - j)), (rd b (p + n - 1 - 2 - j + 1)); reflexivity.
    + intros i Hi. rewrite CC by exact Hi. apply BITS. exact Hi.
Qed.
End Shift.
