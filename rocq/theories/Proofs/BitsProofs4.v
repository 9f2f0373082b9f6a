(** Bit images and the constructor from an array of bool. *)
From Verif Require Export Proofs.BitsProofs3.

Lemma bools_ok m p arr w : array_in m (BA p 0 w 1) -> Z.of_nat (length arr) = w ->
  exists m', ba_of_bools m p arr w 1 = Some m' /\ only_in (BA p 0 w 1) m m' /\ array_in m' (BA p 0 w 1) /\
    forall i, 0 <= i < w -> getValue m' (BA p 0 w 1) i = rd arr i.
Proof.
  intros H L. unfold ba_of_bools. set (f := fun m i => _).
  assert (forall n, 0 <= n -> n <= w -> exists m', fold_opt f (zseq n) m = Some m' /\ only_in (BA p 0 w 1) m m' /\
     array_in m' (BA p 0 w 1) /\ forall i, 0 <= i < n -> getValue m' (BA p 0 w 1) i = rd arr i) as ALL.
  2:{ destruct H as (_ & W & _). cbn in W. apply ALL; lia. }
  intros n Hn. pattern n. apply natlike_ind; [| |exact Hn].
  - intros _. exists m. split; [reflexivity|]. split; [|split; [exact H|lia]].
    split; [reflexivity|]. split; [apply H|reflexivity].
  - intros q Hq IH Hq1. destruct IH as (m1 & E & O & A & V); [lia|].
    unfold Z.succ. rewrite zseq_succ by lia. rewrite fold_opt_app, E. cbn [fold_opt option_bind]. unfold f at 1.
    destruct (rd_in_range arr q) as [v Ev]; [lia|]. rewrite Ev.
    destruct (set_get m1 (BA p 0 w 1) q v A) as (m2 & E2 & O2 & A2 & V2); [cbn; lia|].
    rewrite E2. exists m2. split; [reflexivity|]. split; [|split; [exact A2|]].
    + destruct O as (L1 & W1 & K1), O2 as (L2 & W2 & K2). split; [congruence|]. split; [exact W2|].
      intros k Hk. rewrite K2, K1 by exact Hk. reflexivity.
    + intros i Hi. rewrite V2 by (cbn; lia). destruct (Z.eqb_spec i q) as [->|]; [congruence|]. apply V. lia.
Qed.

(** *** Images *)

Section Image.
Variables (m : list Z) (p w h d : Z).
Hypothesis I : bit_image_in m p w h d.

Lemma img_small : 0 < row_words w <= 2 ^ 26 /\ 0 < h * d <= 2 ^ 26 /\ 0 < h <= 2 ^ 26 /\ 0 < d <= 2 ^ 26 /\ w <= 64 * row_words w.
Proof using I.
  destruct I as (_ & W & H & D & S & _). pose proof (row_words_pos w (proj1 W)) as [P Q].
  assert (0 < h * d) by nia. assert (row_words w * 1 <= row_words w * (h * d)) by nia.
  assert (1 * (h * d) <= row_words w * (h * d)) by nia. assert (h * 1 <= h * d) by nia. assert (1 * d <= h * d) by nia.
  clear - S H0 H1 H2 H3 H4 P Q H D. lia.
Qed.

Lemma pixels_in : array_in m (bit_pixels p w h d) /\ bit_pixels p w h d = BA p 0 w (h * d).
Proof using I.
  pose proof img_small as S. assert (uint (h * d) = h * d) as E.
  { unfold uint. apply Z.mod_small. clear - S. lia. }
  unfold bit_pixels. rewrite E. split; [|reflexivity].
  destruct I as (A & W & H & D & B & P & L). unfold array_in. cbn [ba_int ba_width ba_height]. intuition lia.
Qed.

Lemma line_is k j : 0 <= k < d -> 0 <= j < h ->
  bit_line p w h d k j = BA (p + row_words w * (k * h + j)) 0 w 1 /\
  0 <= k * h + j < h * d /\ line_in m (bit_line p w h d k j).
Proof using I.
  intros Hk Hj. pose proof img_small as S. destruct pixels_in as [A E].
  assert (0 <= k * h + j < h * d) as R by (clear - Hk Hj; nia).
  assert (bit_line p w h d k j = BA (p + row_words w * (k * h + j)) 0 w 1) as E1.
  { unfold bit_line. rewrite (intWidth_row m) by exact A. rewrite E. cbn [ba_width].
    destruct I as (_ & W & H & D & B & P & L). set (r := row_words w) in *.
    assert (0 <= r * h <= r * (h * d)) as B1 by (clear - S; nia).
    assert (uint (r * h) = r * h) as ->.
    { unfold uint. apply Z.mod_small. clear - B B1. lia. }
    assert (0 <= k * (r * h) /\ 0 <= j * r /\ k * (r * h) + j * r < r * (h * d)) as (B2 & B3 & B4) by (clear - S R Hk Hj; nia).
    unfold uint. rewrite (Z.mod_small (k * (r * h))), (Z.mod_small (j * r)) by (clear - B B2 B3 B4; lia).
    rewrite Z.mod_small by (clear - B B2 B3 B4; lia).
    f_equal. clear. ring. }
  split; [exact E1|]. split; [exact R|]. rewrite E1.
  destruct I as (A0 & W & H & D & B & P & L). pose proof (row_words_pos w (proj1 W)) as [P1 Q1].
  assert (row_words w * (k * h + j) + row_words w <= row_words w * (h * d)) by (clear - R P1; nia).
  assert (0 <= row_words w * (k * h + j)) by (clear - R P1; nia).
  split; [|split; reflexivity]. unfold array_in. cbn [ba_int ba_width ba_height]. rewrite !Z.mul_1_r. clear - A0 W S B P L H0 H1. intuition lia.
Qed.

(** A bit of a line is a bit of the image. *)
Lemma line_pixel_place k j i : 0 <= k < d -> 0 <= j < h -> 0 <= i < w ->
  0 <= i + w * (j + h * k) < w * (h * d) /\
  word_at (bit_line p w h d k j) i = word_at (bit_pixels p w h d) (i + w * (j + h * k)) /\
  bit_at (bit_line p w h d k j) i = bit_at (bit_pixels p w h d) (i + w * (j + h * k)).
Proof using I.
  intros Hk Hj Hi. destruct (line_is k j Hk Hj) as (E & R & _). destruct pixels_in as [_ E2].
  split; [clear - R Hi; nia|]. rewrite E, E2. unfold word_at, bit_at. cbn [ba_int ba_width].
  assert ((i + w * (j + h * k)) / w = k * h + j) as ->.
  { rewrite (Z.mul_comm w), Z.div_add, Z.div_small by lia. ring. }
  assert ((i + w * (j + h * k)) mod w = i) as ->.
  { rewrite (Z.mul_comm w), Z.mod_add, Z.mod_small by lia. reflexivity. }
  rewrite Z.div_small, Z.mod_small by exact Hi. split; [ring|reflexivity].
Qed.

Lemma line_pixel_get k j i : 0 <= k < d -> 0 <= j < h -> 0 <= i < w ->
  getValue m (bit_line p w h d k j) i = getValue m (bit_pixels p w h d) (i + w * (j + h * k)).
Proof using I.
  intros Hk Hj Hi. destruct (line_is k j Hk Hj) as (E & _ & (A & H1 & _)). destruct pixels_in as [A2 E2].
  destruct (line_pixel_place k j i Hk Hj Hi) as (R & EW & EB).
  rewrite get_bit; [|exact A|rewrite H1, E; cbn; lia].
  rewrite get_bit; [|exact A2|rewrite E2; cbn; lia].
  rewrite EW, EB. reflexivity.
Qed.

Lemma line_pixel_set k j i v : 0 <= k < d -> 0 <= j < h -> 0 <= i < w ->
  setValue m (bit_line p w h d k j) i v = setValue m (bit_pixels p w h d) (i + w * (j + h * k)) v.
Proof using I.
  intros Hk Hj Hi. destruct (line_is k j Hk Hj) as (E & _ & (A & H1 & _)). destruct pixels_in as [A2 E2].
  destruct (line_pixel_place k j i Hk Hj Hi) as (R & EW & EB).
  unfold setValue. rewrite (place m); [|exact A|rewrite H1, E; cbn; lia].
  rewrite (place m); [|exact A2|rewrite E2; cbn; lia].
  unfold word_at, bit_at in EW, EB. rewrite EW, EB. reflexivity.
Qed.

Lemma uint_small z : 0 <= z < 2 ^ 32 -> uint z = z.
Proof using. apply Z.mod_small. Qed.

Lemma pixel_count : w * (h * d) <= 2 ^ 32.
Proof using I.
  pose proof img_small as S. destruct I as (_ & W & _ & _ & B & _). clear - S B. nia.
Qed.

Lemma setPixel_is off v : 0 <= off < w * (h * d) ->
  bit_setPixel m p w h d off v = setValue m (bit_pixels p w h d) off v.
Proof using I.
  intros Ho. pose proof I as (_ & W & H & D & _). unfold bit_setPixel.
  destruct (Z.eqb_spec w 0); [lia|]. destruct (Z.eqb_spec h 0); [lia|]. cbn [orb].
  assert (0 <= off / w < h * d) as R by (split; [apply Z.div_pos; lia|apply Z.div_lt_upper_bound; lia]).
  destruct (Z.leb_spec 0 (off / w)); [|lia]. destruct (Z.ltb_spec (off / w) (h * d)); [|lia]. cbn [andb].
  assert (0 <= off / w / h < d) as R1 by (split; [apply Z.div_pos; lia|apply Z.div_lt_upper_bound; lia]).
  assert (0 <= off / w mod h < h) as R2 by (apply Z.mod_pos_bound; lia).
  assert (0 <= off mod w < w) as R3 by (apply Z.mod_pos_bound; lia).
  destruct (line_is _ _ R1 R2) as (E & _). unfold ba_set, ba_at. rewrite E. cbn [ba_index ba_int ba_width ba_height].
  rewrite Z.add_0_l, !uint_small by (rewrite ?uint_small; lia).
  pose proof (line_pixel_set _ _ _ v R1 R2 R3) as F. rewrite E in F.
  replace (off mod w + w * (off / w mod h + h * (off / w / h))) with off in F.
  2:{ pose proof (Z.div_mod off w ltac:(lia)). pose proof (Z.div_mod (off / w) h ltac:(lia)). nia. }
  rewrite <- F. reflexivity.
Qed.

Lemma setPixel3_is x y z v : 0 <= x < w -> 0 <= y < h -> 0 <= z < d ->
  bit_setPixel3 m p w h d x y z v = setValue m (bit_pixels p w h d) (x + w * (y + h * z)) v.
Proof using I.
  intros Hx Hy Hz. destruct (line_pixel_place z y x Hz Hy Hx) as (R & _). pose proof pixel_count as C.
  destruct pixels_in as [_ E]. unfold bit_setPixel3, ba_set, ba_at. rewrite E. cbn [ba_index ba_int ba_width ba_height].
  rewrite Z.add_0_l. replace (z * w * h + y * w + x) with (x + w * (y + h * z)) by ring.
  rewrite !uint_small; [reflexivity| |]; rewrite ?uint_small; lia.
Qed.

Lemma getPixel_is off : 0 <= off < w * (h * d) ->
  bit_getPixel m p w h d off = getValue m (bit_pixels p w h d) off.
Proof using I.
  intros Ho. pose proof pixel_count as C. unfold bit_getPixel, ba_const_at. rewrite uint_small by lia. reflexivity.
Qed.
End Image.

Lemma image_upd m m' p w h d : bit_image_in m p w h d -> length m' = length m -> all_words m' ->
  bit_image_in m' p w h d.
Proof. intros H L W. unfold bit_image_in in *. rewrite L. tauto. Qed.
