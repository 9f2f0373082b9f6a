(** C41 and C68 to C70: bit arrays, bit images, line functors and shifts on bits. *)
From Verif Require Export Proofs.BitsProofs4.

(** *** C41: bits are independent *)

(** For every width, height, index and content, as long as the words of the array number at most 2^26: writing
    a bit changes that bit and no other, in the array or outside. *)
Theorem C41_bits_partial m a i v : array_in m a -> 0 <= i < ba_width a * ba_height a ->
  exists m', setValue m a i v = Some m' /\ array_in m' a /\
    (forall j, 0 <= j < ba_width a * ba_height a ->
       (exists b, getValue m a j = Some b) /\ getValue m' a j = if j =? i then Some v else getValue m a j) /\
    (forall k, k < ba_int a \/ ba_int a + row_words (ba_width a) * ba_height a <= k -> rd m' k = rd m k).
Proof.
  intros H Hi. destruct (set_get m a i v H Hi) as (m' & E & (_ & _ & K) & A & V).
  exists m'. split; [exact E|]. split; [exact A|]. split; [|exact K].
  intros j Hj. split; [apply get_defined; assumption|apply V; exact Hj].
Qed.
Print Assumptions C41_bits_partial.

(** The same through the assignment [(a+k)[i] = v] and the reading [(bool)(a+k)[j]]. *)
Theorem C41_lvalue_partial m a i v : array_in m a -> 0 <= ba_index a -> 0 <= i ->
  ba_index a + i < ba_width a * ba_height a ->
  exists m', ba_set m (ba_at a i) v = Some m' /\
    forall j, 0 <= j -> ba_index a + j < ba_width a * ba_height a ->
      ba_get m' (ba_at a j) = if j =? i then Some v else ba_get m (ba_at a j).
Proof.
  intros H Hx Hi Hs. destruct (set_get m a (ba_index a + i) v H) as (m' & E & _ & _ & V); [lia|].
  assert (ba_width a * ba_height a <= 2 ^ 32) as B.
  { destruct (array_small m a H) as (W & Hh & _). destruct H as (_ & _ & _ & S & _).
    pose proof (row_words_pos _ (proj1 W)) as [_ Q]. clear - S Q Hh. nia. }
  exists m'. unfold ba_set, ba_get, ba_at. cbn [ba_index]. split.
  - rewrite uint_small by lia. exact E.
  - intros j Hj Hjs. rewrite uint_small by lia.
    change (getValue m' a (ba_index a + j) = if j =? i then Some v else getValue m a (ba_index a + j)).
    rewrite V by lia. destruct (Z.eqb_spec (ba_index a + j) (ba_index a + i)), (Z.eqb_spec j i); lia || reflexivity.
Qed.
Print Assumptions C41_lvalue_partial.

(** Arrays that share no word do not disturb each other. *)
Theorem C41_apart m a b i v m' j : array_in m a -> array_in m b -> apart a b ->
  0 <= i < ba_width a * ba_height a -> 0 <= j < ba_width b * ba_height b ->
  setValue m a i v = Some m' -> getValue m' b j = getValue m b j.
Proof.
  intros Ha Hb D Hi Hj E. destruct (set_get m a i v Ha Hi) as (m1 & E1 & O & _).
  assert (m1 = m') as -> by congruence. apply (apart_get m m' a b); assumption.
Qed.
Print Assumptions C41_apart.

(** One word more, and two bits are the same: the index with padding is computed on 32 bits. *)
Theorem C41_size_refuted : let a := BA 0 0 1 (2 ^ 26 + 1) in
  exists m m', Z.of_nat (length m) = row_words (ba_width a) * ba_height a /\ all_words m /\
    getValue m a 0 = Some false /\ setValue m a (2 ^ 26) true = Some m' /\ getValue m' a 0 = Some true.
Proof.
  intros a. set (m := repeat 0 (Z.to_nat (2 ^ 26 + 1))).
  assert (Z.of_nat (length m) = 2 ^ 26 + 1) as L by (unfold m; rewrite repeat_length; lia).
  destruct (wr_Some m 0 (Z.lor 0 (Z.shiftl 1 0))) as [m' E]; [rewrite L; lia|].
  assert (rd m 0 = Some 0) as R0 by (unfold m; apply rd_repeat; lia).
  assert (bit_place a 0 = Some (0, 0)) as P0 by (vm_compute; reflexivity).
  assert (bit_place a (2 ^ 26) = Some (0, 0)) as P1 by (vm_compute; reflexivity).
  exists m, m'. split; [rewrite L; reflexivity|]. split.
  - intros k w Hk. pose proof (rd_Some_range _ _ _ Hk) as R. unfold m in Hk. rewrite rd_repeat in Hk by lia.
    injection Hk as <-. lia.
  - unfold getValue, setValue. rewrite P0, P1. change (ba_int a + 0) with 0. rewrite R0.
    split; [reflexivity|]. split; [exact E|]. rewrite (rd_wr _ _ _ _ 0 E). reflexivity.
Qed.
Print Assumptions C41_size_refuted.

(** The right-value [a[i]] of a constant array ignores the index: it is not what the left-value reads. *)
Theorem C41_const_refuted : let a := ba_at (BA 0 0 8 1) 1 in
  array_in [1] a /\ ba_get [1] (ba_at a 0) = Some false /\ ba_const_at [1] a 0 = Some true.
Proof.
  split; [|split; reflexivity]. split; [|cbn; lia].
  intros k w E. pose proof (rd_Some_range _ _ _ E) as R. cbn in R. assert (k = 0) as -> by lia.
  injection E as <-. lia.
Qed.
Print Assumptions C41_const_refuted.

(** The constructor from an array of bool keeps the values of one row, ... *)
Theorem C41_constructor_partial m p arr w : array_in m (BA p 0 w 1) -> Z.of_nat (length arr) = w ->
  exists m', ba_of_bools m p arr w 1 = Some m' /\
    forall i, 0 <= i < w -> getValue m' (BA p 0 w 1) i = rd arr i.
Proof.
  intros H L. destruct (bools_ok m p arr w H L) as (m' & E & _ & _ & V). exists m'. split; [exact E|exact V].
Qed.
Print Assumptions C41_constructor_partial.

(** ... but of several rows it copies only the first: the others are what the memory held. *)
Theorem C41_constructor_refuted junk : 0 <= junk < 2 ^ 64 -> exists arr m', length arr = 4%nat /\
  ba_of_bools [0; junk] 0 arr 2 2 = Some m' /\ getValue m' (BA 0 0 2 2) 2 <> rd arr 2.
Proof.
  intros J. exists [true; true; negb (Z.testbit junk 0); true]. eexists. split; [reflexivity|].
  split; [reflexivity|].
  pose proof (test_mask junk 0 ltac:(lia)) as T.
  match goal with |- ?g <> _ => change g with (Some (negb (Z.land junk (Z.shiftl 1 0) =? 0))) end.
  rewrite T. match goal with |- _ <> ?r => change r with (Some (negb (Z.testbit junk 0))) end.
  destruct (Z.testbit junk 0); discriminate.
Qed.
Print Assumptions C41_constructor_refuted.

(** An array of 3 rows of 70 bits: 6 words, the rows being padded to two words each. *)
Definition mem6 := [5; 0; 2 ^ 64 - 1; 63; 0; 1].
Example C41_case : array_in mem6 (BA 0 0 70 3) /\ ba_width (BA 0 0 70 3) * ba_height (BA 0 0 70 3) = 210 /\
  getValue mem6 (BA 0 0 70 3) 139 = Some true /\
  setValue mem6 (BA 0 0 70 3) 139 false = Some [5; 0; 2 ^ 64 - 1; 31; 0; 1] /\
  getValue [5; 0; 2 ^ 64 - 1; 31; 0; 1] (BA 0 0 70 3) 139 = Some false.
Proof.
  split; [|vm_compute; repeat split]. split; [|cbn; lia].
  intros k w E. pose proof (rd_Some_range _ _ _ E) as R. cbn in R.
  assert (k = 0 \/ k = 1 \/ k = 2 \/ k = 3 \/ k = 4 \/ k = 5) as C by lia.
  decompose [or] C; subst k; injection E as <-; vm_compute; split; discriminate || reflexivity.
Qed.

(** *** C68: bit images *)

(** The pixel, the line and the offset are three names of the same bit, whatever the padding of the rows:
    writing through one is read through the others, and no other pixel changes. *)
Theorem C68_bit_image_partial m p w h d : bit_image_in m p w h d ->
  (forall x y z, 0 <= x < w -> 0 <= y < h -> 0 <= z < d ->
     0 <= x + w * (y + h * z) < w * (h * d) /\
     getValue m (bit_line p w h d z y) x = bit_getPixel m p w h d (x + w * (y + h * z)) /\
     (forall v, setValue m (bit_line p w h d z y) x v = bit_setPixel m p w h d (x + w * (y + h * z)) v) /\
     (forall v, bit_setPixel3 m p w h d x y z v = bit_setPixel m p w h d (x + w * (y + h * z)) v)) /\
  forall off v, 0 <= off < w * (h * d) ->
    exists m', bit_setPixel m p w h d off v = Some m' /\ bit_image_in m' p w h d /\
      forall o, 0 <= o < w * (h * d) ->
        (exists b, bit_getPixel m p w h d o = Some b) /\
        bit_getPixel m' p w h d o = if o =? off then Some v else bit_getPixel m p w h d o.
Proof.
  intros H. split.
  - intros x y z Hx Hy Hz. destruct (line_pixel_place m p w h d H z y x Hz Hy Hx) as (R & _).
    split; [exact R|]. split; [|split].
    + rewrite (getPixel_is m p w h d H) by exact R. apply line_pixel_get; assumption.
    + intros v. rewrite (setPixel_is m p w h d H) by exact R. apply line_pixel_set; assumption.
    + intros v. rewrite (setPixel_is m p w h d H) by exact R. apply (setPixel3_is m p w h d H); assumption.
  - intros off v Ho. rewrite (setPixel_is m p w h d H) by exact Ho.
    destruct (pixels_in m p w h d H) as [A E].
    destruct (set_get m (bit_pixels p w h d) off v A) as (m' & E1 & (L & W & _) & A' & V); [rewrite E; exact Ho|].
    exists m'. split; [exact E1|]. assert (bit_image_in m' p w h d) as H' by (apply (image_upd m); assumption).
    split; [exact H'|]. intros o Hoo. rewrite (getPixel_is m p w h d H), (getPixel_is m' p w h d H') by exact Hoo.
    split; [apply get_defined; [exact A|rewrite E; exact Hoo]|]. apply V. rewrite E. exact Hoo.
Qed.
Print Assumptions C68_bit_image_partial.

Example C68_case : bit_image_in mem6 0 70 3 1 /\ bit_setPixel mem6 0 70 3 1 139 false = Some [5; 0; 2 ^ 64 - 1; 31; 0; 1] /\
  getValue [5; 0; 2 ^ 64 - 1; 31; 0; 1] (bit_line 0 70 3 1 0 1) 69 = Some false.
Proof.
  split; [|vm_compute; repeat split]. destruct C41_case as ((A & _) & _).
  split; [exact A|]. cbn. lia.
Qed.

(** *** C69: line functors *)

(** Every functor with two input lines computes, pixel by pixel, the arithmetic of the values 0 and 1; the
    output may be one of the inputs; nothing else changes. *)
Theorem C69_binary f m l1 l2 lo : line_in m l1 -> line_in m l2 -> line_in m lo ->
  ba_width l1 = ba_width lo -> ba_width l2 = ba_width lo -> same_or_apart l1 lo -> same_or_apart l2 lo ->
  exists m', binaryLine_bit f m l1 l2 (ba_width lo) lo = Some m' /\ only_in lo m m' /\
    forall i, 0 <= i < ba_width lo -> exists a b c,
      getValue m l1 i = Some a /\ getValue m l2 i = Some b /\ getValue m' lo i = Some c /\
      Z.b2z c = bit_arith f (Z.b2z a) (Z.b2z b).
Proof.
  intros H1 H2 Ho W1 W2 S1 S2.
  destruct (word_loop2_ok m lo Ho (bit_word f) l1 l2 H1 H2 W1 W2 S1 S2 (functor_word f)) as (m' & E & O & _ & V).
  exists m'. split; [exact E|]. split; [exact O|]. intros i Hi. do 3 eexists.
  split; [apply line_bit; [exact H1|lia]|]. split; [apply line_bit; [exact H2|lia]|].
  split; [apply V; exact Hi|]. apply functor_bit. apply Z.mod_pos_bound. lia.
Qed.
Print Assumptions C69_binary.

Theorem C69_inv m l1 lo : line_in m l1 -> line_in m lo -> ba_width l1 = ba_width lo -> same_or_apart l1 lo ->
  exists m', invLine_bit m l1 (ba_width lo) lo = Some m' /\ only_in lo m m' /\
    forall i, 0 <= i < ba_width lo -> exists a,
      getValue m l1 i = Some a /\ getValue m' lo i = Some (negb a).
Proof.
  intros H1 Ho W1 S1.
  destruct (word_loop1_ok m lo Ho not64 l1 H1 W1 S1) as (m' & E & O & _ & V); [intros; apply mod_word|].
  exists m'. split; [exact E|]. split; [exact O|]. intros i Hi. eexists.
  split; [apply line_bit; [exact H1|lia]|]. rewrite V by exact Hi. f_equal.
  apply not64_bit. apply Z.mod_pos_bound. lia.
Qed.
Print Assumptions C69_inv.

Theorem C69_test m l1 l2 l3 lo : line_in m l1 -> line_in m l2 -> line_in m l3 -> line_in m lo ->
  ba_width l1 = ba_width lo -> ba_width l2 = ba_width lo -> ba_width l3 = ba_width lo ->
  same_or_apart l1 lo -> same_or_apart l2 lo -> same_or_apart l3 lo ->
  exists m', testLine_bit m l1 l2 l3 (ba_width lo) lo = Some m' /\ only_in lo m m' /\
    forall i, 0 <= i < ba_width lo -> exists a b c,
      getValue m l1 i = Some a /\ getValue m l2 i = Some b /\ getValue m l3 i = Some c /\
      getValue m' lo i = Some (if a then b else c).
Proof.
  intros H1 H2 H3 Ho W1 W2 W3 S1 S2 S3.
  destruct (word_loop3_ok m lo Ho (fun a b c => Z.lor (Z.land a b) (Z.land (not64 a) c)) l1 l2 l3)
    as (m' & E & O & _ & V); try assumption.
  { intros. apply lor_word; apply land_word; try assumption. apply mod_word. }
  exists m'. split; [exact E|]. split; [exact O|]. intros i Hi. do 3 eexists.
  split; [apply line_bit; [exact H1|lia]|]. split; [apply line_bit; [exact H2|lia]|].
  split; [apply line_bit; [exact H3|lia]|]. rewrite V by exact Hi. f_equal.
  rewrite Z.lor_spec, !Z.land_spec, not64_bit by (apply Z.mod_pos_bound; lia).
  destruct (Z.testbit (wd m l1 (i / 64)) (i mod 64)); cbn [andb negb orb]; [apply orb_false_r|reflexivity].
Qed.
Print Assumptions C69_test.

Theorem C69_fill m lo v : line_in m lo ->
  exists m', fillLine_bit m lo (ba_width lo) v = Some m' /\ only_in lo m m' /\
    forall i, 0 <= i < ba_width lo -> getValue m' lo i = Some v.
Proof.
  intros Ho. destruct (fill_ok m lo Ho v) as (m' & E & O & _ & V). exists m'. tauto.
Qed.
Print Assumptions C69_fill.

Theorem C69_copy_partial m l1 lo : line_in m l1 -> line_in m lo -> ba_width l1 = ba_width lo -> same_or_apart l1 lo ->
  exists m', copyLine_bit m l1 (ba_width lo) lo = Some m' /\ only_in lo m m' /\
    forall i, 0 <= i < ba_width lo -> getValue m' lo i = getValue m l1 i.
Proof.
  intros H1 Ho W1 S1. destruct (copy_ok m lo Ho l1 H1 W1 S1) as (m' & E & O & _ & V). exists m'. tauto.
Qed.
Print Assumptions C69_copy_partial.

(** A line read from its second bit is copied from its first bit. *)
Theorem C69_copy_refuted : let l1 := ba_at (BA 0 0 8 1) 1 in let lo := BA 1 0 8 1 in
  copyLine_bit [1; 0] l1 7 lo = Some [1; 1] /\
  ba_get [1; 0] (ba_at l1 0) = Some false /\ ba_get [1; 1] (ba_at lo 0) = Some true.
Proof. vm_compute. repeat split. Qed.
Print Assumptions C69_copy_refuted.

(** An empty line is not left alone: 2^26 words are written. *)
Theorem C69_empty_refuted m l v : Z.of_nat (length m) < 2 ^ 26 -> 0 <= ba_int l -> fillLine_bit m l 0 v = None.
Proof.
  intros H Hl. unfold fillLine_bit. change (INT_SIZE 0) with (2 ^ 26).
  set (f := fun m i => _).
  assert (forall n, 0 <= n -> forall m', fold_opt f (zseq n) m = Some m' -> length m' = length m /\ (0 < n -> n <= Z.of_nat (length m))) as A.
  { intros n Hn. pattern n. apply natlike_ind; [| |exact Hn].
    - intros m' [= <-]. split; [reflexivity|lia].
    - intros q Hq IH m'. unfold Z.succ. rewrite zseq_succ by lia. rewrite fold_opt_app.
      destruct (fold_opt f (zseq q) m) as [m1|]; [|discriminate]. cbn [option_bind fold_opt].
      destruct (f m1 q) as [m2|] eqn:F; [|discriminate]. intros [= <-]. destruct (IH m1 eq_refl) as [L _].
      unfold f in F. pose proof (wr_length _ _ _ _ F) as L2. split; [congruence|]. intros _.
      assert (~ (0 <= ba_int l + q < Z.of_nat (length m1)) -> False) as B.
      { intros N. rewrite (wr_None m1) in F by exact N. discriminate. }
      lia. }
  destruct (fold_opt f (zseq (2 ^ 26)) m) as [m'|] eqn:E; [|reflexivity].
  destruct (A (2 ^ 26) ltac:(lia) m' E) as [_ B]. specialize (B ltac:(lia)). lia.
Qed.
Print Assumptions C69_empty_refuted.

Example C69_case : line_in mem6 (BA 0 0 70 1) /\ line_in mem6 (BA 2 0 70 1) /\ line_in mem6 (BA 4 0 70 1) /\
  same_or_apart (BA 0 0 70 1) (BA 4 0 70 1) /\ same_or_apart (BA 2 0 70 1) (BA 4 0 70 1) /\ same_or_apart (BA 2 0 70 1) (BA 2 0 70 1) /\
  binaryLine_bit bSubNoSat mem6 (BA 0 0 70 1) (BA 2 0 70 1) 70 (BA 4 0 70 1) = Some [5; 0; 2 ^ 64 - 1; 63; 2 ^ 64 - 6; 63].
Proof.
  destruct C41_case as ((A & _) & _).
  assert (forall k, 0 <= k <= 4 -> line_in mem6 (BA k 0 70 1)) as L.
  { intros k Hk. split; [|split; reflexivity]. split; [exact A|]. cbn. lia. }
  split; [apply L; lia|]. split; [apply L; lia|]. split; [apply L; lia|].
  split; [right; left; cbn; lia|]. split; [right; left; cbn; lia|]. split; [left; reflexivity|]. vm_compute. reflexivity.
Qed.

(** *** C70: shifts *)

(** [shiftLine<Bit>]: the line moved by [dx], the freed pixels taking the border value.  Proved for null
    shifts, for shifts out of the line, to the left-hand side of memory (dx > 0) unless [dx] is a multiple of 64,
    and for dx < 0 unless it is a multiple of 64, when the row fills its words or when the border value is 0
    and the shift and the padding together stay below one word. *)
Theorem C70_shift_partial m l1 dx lo border : line_in m l1 -> line_in m lo -> ba_width l1 = ba_width lo -> apart l1 lo ->
  ba_width lo < 2 ^ 31 -> - 2 ^ 31 < dx < 2 ^ 31 ->
  dx = 0 \/ ba_width lo <= Z.abs dx \/
    dx mod 64 <> 0 /\
    (0 < dx \/ ba_width lo mod 64 = 0 \/
     border = false /\ Z.abs dx mod 64 + (64 * row_words (ba_width lo) - ba_width lo) < 64) ->
  exists m', shiftLine_bit m l1 dx (ba_width lo) lo border = Some m' /\ only_in lo m m' /\
    forall i, 0 <= i < ba_width lo ->
      getValue m' lo i = if (0 <=? i - dx) && (i - dx <? ba_width lo) then getValue m l1 (i - dx) else Some border.
Proof.
  intros H1 Ho W1 S Hw Hd HC. unfold shiftLine_bit.
  pose proof (line_words m lo Ho) as (_ & _ & _ & _ & W & _).
  assert (to_int (ba_width lo) = ba_width lo) as T.
  { unfold to_int. rewrite Z.mod_small by (clear - W Hw; lia). lia. }
  destruct (Z.eqb_spec dx 0) as [D0|D0].
  - destruct (copy_ok m lo Ho l1 H1 W1 (or_intror S)) as (m' & E & O & _ & V).
    exists m'. split; [exact E|]. split; [exact O|]. intros i Hi. rewrite V by exact Hi.
    replace (i - dx) with i by lia. destruct (Z.leb_spec 0 i), (Z.ltb_spec i (ba_width lo)); lia || reflexivity.
  - destruct (Z.ltb_spec 0 dx) as [D|D].
    + destruct (Z_lt_le_dec dx (ba_width lo)) as [B|B].
      * destruct (left_ok m l1 lo H1 Ho W1 S dx border) as (m' & E & O & _ & V);
          [lia|lia|exact Hw|destruct HC as [?|[?|[? _]]]; [lia|lia|assumption]|].
        exists m'. split; [exact E|]. split; [exact O|]. intros i Hi. rewrite V by exact Hi.
        destruct (Z.ltb_spec i dx), (Z.leb_spec 0 (i - dx)), (Z.ltb_spec (i - dx) (ba_width lo)); lia || reflexivity.
      * destruct (fill_ok m lo Ho border) as (m' & E & O & _ & V).
        exists m'. split; [|split; [exact O|]].
        -- unfold bitShiftLeft. rewrite T. destruct (Z.leb_spec (ba_width lo) dx); [exact E|lia].
        -- intros i Hi. rewrite V by exact Hi. destruct (Z.leb_spec 0 (i - dx)); [lia|reflexivity].
    + destruct (Z_lt_le_dec (- dx) (ba_width lo)) as [B|B].
      * destruct HC as [?|[?|[R C]]]; [lia|lia|]. replace (Z.abs dx) with (- dx) in C by lia.
        destruct (right_ok m l1 lo H1 Ho W1 S (- dx) border) as (m' & E & O & _ & V);
          [lia|exact Hw|clear - R; lia|destruct C as [?|[?|?]]; [lia|left; assumption|right; assumption]|].
        exists m'. split; [exact E|]. split; [exact O|]. intros i Hi. rewrite V by exact Hi.
        replace (i + - dx) with (i - dx) by lia.
        destruct (Z.leb_spec 0 (i - dx)); [reflexivity|lia].
      * destruct (fill_ok m lo Ho border) as (m' & E & O & _ & V).
        exists m'. split; [|split; [exact O|]].
        -- unfold bitShiftRight. rewrite T. destruct (Z.leb_spec (ba_width lo) (- dx)); [exact E|lia].
        -- intros i Hi. rewrite V by exact Hi.
           destruct (Z.ltb_spec (i - dx) (ba_width lo)); [lia|rewrite andb_false_r; reflexivity].
Qed.
Print Assumptions C70_shift_partial.

(** A shift by a multiple of 64 pixels inside the line shifts a word by its whole width, which is undefined. *)
Theorem C70_word_refuted m l1 dx lo border : line_in m l1 -> line_in m lo -> ba_width l1 = ba_width lo -> apart l1 lo ->
  ba_width lo < 2 ^ 31 -> 0 < dx < ba_width lo -> dx mod 64 = 0 -> shiftLine_bit m l1 dx (ba_width lo) lo border = None.
Proof.
  intros H1 Ho W1 S Hw Hd R. unfold shiftLine_bit.
  destruct (Z.eqb_spec dx 0); [lia|]. destruct (Z.ltb_spec 0 dx); [|lia]. unfold bitShiftLeft.
  assert (to_int (ba_width lo) = ba_width lo) as ->.
  { unfold to_int. rewrite Z.mod_small by (clear - Hd Hw; lia). lia. }
  destruct (Z.leb_spec (ba_width lo) dx); [lia|].
  destruct (fold_opt _ _ m) as [m1|]; [|reflexivity]. destruct (rd m1 (ba_int l1)) as [a|]; [|reflexivity].
  unfold word_bits at 2 3 4. rewrite R. unfold merge_left. replace (shr64 (word_of border) (64 - 0)) with (@None Z) by reflexivity.
  destruct (shl64 a 0); reflexivity.
Qed.
Print Assumptions C70_word_refuted.

(** With a border of ones and a padded row, the freed pixel is 0: a row of 10 pixels moved by one. *)
Theorem C70_border_refuted : line_in [1; 0] (BA 0 0 10 1) /\ line_in [1; 0] (BA 1 0 10 1) /\
  shiftLine_bit [1; 0] (BA 0 0 10 1) (-1) 10 (BA 1 0 10 1) true = Some [1; 2 ^ 63] /\
  getValue [1; 2 ^ 63] (BA 1 0 10 1) 9 = Some false.
Proof.
  assert (all_words [1; 0]) as A.
  { intros k w E. pose proof (rd_Some_range _ _ _ E) as R. cbn in R.
    assert (k = 0 \/ k = 1) as [-> | ->] by lia; injection E as <-; lia. }
  assert (forall k, 0 <= k <= 1 -> line_in [1; 0] (BA k 0 10 1)) as L.
  { intros k Hk. split; [|split; reflexivity]. split; [exact A|]. cbn. lia. }
  split; [apply L; lia|]. split; [apply L; lia|]. vm_compute. repeat split.
Qed.
Print Assumptions C70_border_refuted.

(** When the shift and the padding reach a word, the pixels are displaced by one word too many: pixel 20 of a
    row of 70 pixels should reach pixel 10 and is lost. *)
Theorem C70_padding_refuted : line_in [2 ^ 20; 0; 0; 0] (BA 0 0 70 1) /\ line_in [2 ^ 20; 0; 0; 0] (BA 2 0 70 1) /\
  getValue [2 ^ 20; 0; 0; 0] (BA 0 0 70 1) 20 = Some true /\
  exists m', shiftLine_bit [2 ^ 20; 0; 0; 0] (BA 0 0 70 1) (-10) 70 (BA 2 0 70 1) false = Some m' /\
    getValue m' (BA 2 0 70 1) 10 = Some false.
Proof.
  assert (all_words [2 ^ 20; 0; 0; 0]) as A.
  { intros k w E. pose proof (rd_Some_range _ _ _ E) as R. cbn in R.
    assert (k = 0 \/ k = 1 \/ k = 2 \/ k = 3) as C by lia. decompose [or] C; subst k; injection E as <-; lia. }
  assert (forall k, 0 <= k <= 2 -> line_in [2 ^ 20; 0; 0; 0] (BA k 0 70 1)) as L.
  { intros k Hk. split; [|split; reflexivity]. split; [exact A|]. cbn. lia. }
  split; [apply L; lia|]. split; [apply L; lia|]. split; [reflexivity|]. eexists. split; vm_compute; reflexivity.
Qed.
Print Assumptions C70_padding_refuted.

(** Rows of 70 pixels moved both ways. *)
Example C70_case : line_in mem6 (BA 0 0 70 1) /\ line_in mem6 (BA 4 0 70 1) /\ apart (BA 0 0 70 1) (BA 4 0 70 1) /\
  shiftLine_bit mem6 (BA 0 0 70 1) 66 70 (BA 4 0 70 1) true = Some [5; 0; 2 ^ 64 - 1; 63; 2 ^ 64 - 1; 23] /\
  shiftLine_bit mem6 (BA 2 0 70 1) (-3) 70 (BA 4 0 70 1) false = Some [5; 0; 2 ^ 64 - 1; 63; 2 ^ 64 - 1; 7] /\
  3 mod 64 + (64 * row_words 70 - 70) < 64.
Proof.
  destruct C69_case as (A & _ & B & _). split; [exact A|]. split; [exact B|]. split; [left; cbn; lia|].
  vm_compute. repeat split.
Qed.
