(** BMP files. *)
From Verif Require Export Proofs.FilesProofs2.

(** ** Reading at a position *)
Lemma f_read_ok data p n : 0 <= p -> 0 <= n -> p + n <= Z.of_nat (length data) -> exists l, f_read data p n = Some l /\ Z.of_nat (length l) = n /\ forall i, 0 <= i < n -> rd l i = rd data (p + i).
Proof.
  intros Hp Hn Hl. unfold f_read, subarray. replace ((0 <=? p) && (0 <=? n) && (p + n <=? Z.of_nat (length data))) with true by lia. eexists. split; [reflexivity|].
  split; [rewrite firstn_length, skipn_length; lia|]. intros i Hi. rewrite rd_firstn by lia. replace (i <? _) with true by lia. rewrite rd_skipn by lia. f_equal. lia.
Qed.
Lemma list2 (l : list Z) b0 b1 : Z.of_nat (length l) = 2 -> rd l 0 = Some b0 -> rd l 1 = Some b1 -> l = [b0; b1].
Proof. destruct l as [|x0 [|x1 [|? ?]]]; cbn [length]; intros H A B; try lia. change (Some x0 = Some b0) in A. change (Some x1 = Some b1) in B. congruence. Qed.
Lemma list4 (l : list Z) b0 b1 b2 b3 : Z.of_nat (length l) = 4 -> rd l 0 = Some b0 -> rd l 1 = Some b1 -> rd l 2 = Some b2 -> rd l 3 = Some b3 -> l = [b0; b1; b2; b3].
Proof. destruct l as [|x0 [|x1 [|x2 [|x3 [|? ?]]]]]; cbn [length]; intros H A B C D; try lia. change (Some x0 = Some b0) in A. change (Some x1 = Some b1) in B. change (Some x2 = Some b2) in C. change (Some x3 = Some b3) in D. congruence. Qed.
Lemma f_read4 data p b0 b1 b2 b3 : rd data p = Some b0 -> rd data (p + 1) = Some b1 -> rd data (p + 2) = Some b2 -> rd data (p + 3) = Some b3 -> f_read data p 4 = Some [b0; b1; b2; b3].
Proof.
  intros A B C D. pose proof (rd_Some_range _ _ _ A). pose proof (rd_Some_range _ _ _ D). destruct (f_read_ok data p 4 ltac:(lia) ltac:(lia) ltac:(lia)) as (l & -> & L & R). f_equal.
  apply list4; [lia| | | |]; rewrite R by lia; [rewrite Z.add_0_r|..]; assumption.
Qed.
Lemma f_uint4 data p v : u32 data p v -> f_uint data p 4 = v.
Proof. intros (b0 & b1 & b2 & b3 & A & B & C & D & ->). unfold f_uint. rewrite (f_read4 _ _ _ _ _ _ A B C D). cbn [le_value]. lia. Qed.
Lemma f_uint2 data p v : u16 data p v -> f_uint data p 2 = v.
Proof.
  intros (b0 & b1 & A & B & ->). unfold f_uint. pose proof (rd_Some_range _ _ _ A). pose proof (rd_Some_range _ _ _ B). destruct (f_read_ok data p 2 ltac:(lia) ltac:(lia) ltac:(lia)) as (l & -> & L & R).
  rewrite (list2 l b0 b1) by (first [lia | rewrite R by lia; try rewrite Z.add_0_r; assumption]). cbn [le_value]. lia.
Qed.

(** ** The table *)
Lemma bmp_lut_ok data : forall n pos (lev : Z -> Z), 
  (forall i, 0 <= i < Z.of_nat n -> exists r g b a, lev i = (r + g + b) / 3 /\ rd data (pos + 4 * i) = Some b /\ rd data (pos + 4 * i + 1) = Some g /\ rd data (pos + 4 * i + 2) = Some r /\ rd data (pos + 4 * i + 3) = Some a) ->
  exists lut, bmp_lut data pos n = Some lut /\ Z.of_nat (length lut) = Z.of_nat n /\ forall i, 0 <= i < Z.of_nat n -> rd lut i = Some (lev i).
Proof.
  induction n as [|n IH]; intros pos lev H; [exists []; repeat split; intros i Hi; lia|]. cbn [bmp_lut]. destruct (H 0 ltac:(lia)) as (r & g & b & a & E & A & B & C & D).
  rewrite Z.mul_0_r, Z.add_0_r in A, B, C, D. rewrite (f_read4 _ _ _ _ _ _ A B C D). destruct (IH (pos + 4) (fun i => lev (i + 1))) as (lut & -> & L & R).
  { intros i Hi. destruct (H (i + 1) ltac:(lia)) as (r' & g' & b' & a' & E' & Q). exists r', g', b', a'. split; [exact E'|]. replace (pos + 4 + 4 * i) with (pos + 4 * (i + 1)) by lia. exact Q. }
  cbn [option_bind]. exists ((r + g + b) / 3 :: lut). split; [reflexivity|]. split; [cbn [length]; lia|]. intros i Hi. destruct (Z.eq_dec i 0) as [->|N]; [rewrite <- E; reflexivity|].
  specialize (R (i - 1) ltac:(lia)). replace (i - 1 + 1) with i in R by lia. rewrite <- R. unfold rd. replace (0 <=? i) with true by lia. replace (0 <=? i - 1) with true by lia. replace (Z.to_nat i) with (S (Z.to_nat (i - 1))) by lia. reflexivity.
Qed.

Lemma scanline_stride w : 0 <= w -> bmp_scanline w = bmp_stride w 8 /\ w <= bmp_scanline w.
Proof.
  intros H. unfold bmp_scanline, bmp_stride. pose proof (Z.div_mod w 4 ltac:(lia)). pose proof (Z.mod_pos_bound w 4 ltac:(lia)). destruct (Z.eqb_spec (w mod 4) 0) as [E|E].
  - replace ((w * 8 + 31) / 32) with (w / 4); [lia|]. apply Z.div_unique with 31; lia.
  - replace ((w * 8 + 31) / 32) with (w / 4 + 1); [lia|]. apply Z.div_unique with (8 * (w mod 4) - 1); lia.
Qed.

(** ** The lines *)
Section Lines.
  Variables (data lut : list Z) (w h off : Z) (P : list Z).
  Hypothesis Hw : 0 <= w.
  Hypothesis Hoff : 0 <= off.
  Hypothesis LP : Z.of_nat (length P) = w * h.
  Hypothesis Len : off + h * bmp_scanline w <= Z.of_nat (length data).
  Hypothesis Hpix : forall x y, 0 <= x < w -> 0 <= y < h -> exists b v, rd data (off + (h - 1 - y) * bmp_scanline w + x) = Some b /\ rd lut b = Some v /\ rd P (y * w + x) = Some v.

  Lemma bmp_line_ok j px : 0 <= j < h -> length px = length P ->
    exists px', bmp_line data lut w (off + (h - 1 - j) * bmp_scanline w) px j = Some (true, px') /\ length px' = length P /\ forall o, rd px' o = if (j * w <=? o) && (o <? j * w + w) then rd P o else rd px o.
  Proof using Hw Hoff LP Len Hpix.
    intros Hj Lp. unfold bmp_line. destruct (scanline_stride w Hw) as (_ & Sw). destruct (f_read_ok data (off + (h - 1 - j) * bmp_scanline w) (bmp_scanline w) ltac:(nia) ltac:(lia) ltac:(nia)) as (buf & -> & _ & R).
    assert (G : forall n, 0 <= n -> n <= w -> exists px', fold_opt (fun px i => option_bind (rd buf i) (fun b => option_bind (rd lut b) (fun v => wr px (j * w + i) v))) (zseq n) px = Some px' /\ length px' = length P /\
      forall o, rd px' o = if (j * w <=? o) && (o <? j * w + n) then rd P o else rd px o).
    { intros n Hn. pattern n. apply natlike_ind; [| |exact Hn].
      - intros _. exists px. split; [reflexivity|]. split; [exact Lp|]. intros o. replace (_ && _) with false by lia. reflexivity.
      - clear n Hn. unfold Z.succ. intros n Hn IH Hl. destruct (IH ltac:(lia)) as (p1 & E1 & L1 & R1). rewrite zseq_succ by lia. rewrite fold_opt_app, E1. cbn [option_bind fold_opt].
        destruct (Hpix n j ltac:(lia) Hj) as (b & v & A & B & C). rewrite R, A by lia. cbn [option_bind]. rewrite B. cbn [option_bind]. pose proof (rd_Some_range _ _ _ C). destruct (wr_Some p1 (j * w + n) v ltac:(lia)) as (p2 & E2). rewrite E2.
        exists p2. split; [reflexivity|]. split; [rewrite (wr_length _ _ _ _ E2); exact L1|]. intros o. rewrite (rd_wr _ _ _ _ _ E2), R1. destruct (Z.eqb_spec (j * w + n) o) as [<-|N].
        + replace (_ && _) with true by lia. symmetry. exact C.
        + replace ((j * w <=? o) && (o <? j * w + (n + 1))) with ((j * w <=? o) && (o <? j * w + n)) by lia. reflexivity. }
    destruct (G w Hw ltac:(lia)) as (px' & -> & L & R'). cbn [option_bind]. eauto.
  Qed.

  Lemma bmp_lines_ok : forall m, 0 <= m -> m <= h -> forall px, length px = length P ->
    exists px', bmp_lines data lut w (off + (h - m) * bmp_scanline w) px (rev (zseq m)) = Some (1, px') /\ length px' = length P /\ forall o, rd px' o = if (0 <=? o) && (o <? m * w) then rd P o else rd px o.
  Proof using Hw Hoff LP Len Hpix.
    intros m Hm. pattern m. apply natlike_ind; [| |exact Hm].
    - intros _ px L. exists px. split; [reflexivity|]. split; [exact L|]. intros o. replace (_ && _) with false by lia. reflexivity.
    - clear m Hm. unfold Z.succ. intros m Hm IH Hl px L. rewrite zseq_succ, rev_app_distr by lia. cbn [rev app bmp_lines]. replace (h - (m + 1)) with (h - 1 - m) by lia.
      destruct (bmp_line_ok m px ltac:(lia) L) as (p1 & -> & L1 & R1). cbn [option_bind]. replace (off + (h - 1 - m) * bmp_scanline w + bmp_scanline w) with (off + (h - m) * bmp_scanline w) by lia.
      destruct (IH ltac:(lia) p1 L1) as (p2 & -> & L2 & R2). exists p2. split; [reflexivity|]. split; [exact L2|]. intros o. rewrite R2, R1. assert (0 <= m * w) by nia. replace ((m + 1) * w) with (m * w + w) by lia.
      destruct ((0 <=? o) && (o <? m * w)) eqn:Q; [replace (_ && _) with true by lia; reflexivity|]. destruct ((m * w <=? o) && (o <? m * w + w)) eqn:Q2; [replace (_ && _) with true by lia; reflexivity|replace (_ && _) with false by lia; reflexivity].
  Qed.
End Lines.

Lemma head_ok data w h bpp off : bmp_head data w h bpp off -> 54 <= Z.of_nat (length data) ->
  (exists l, f_read data 0 14 = Some l) /\ (exists l, f_read data 14 40 = Some l) /\ f_uint data 0 2 = 19778 /\ f_uint data 30 4 = 0 /\ f_uint data 28 2 = bpp /\ f_uint data 18 4 = w /\ f_uint data 22 4 = h /\ f_uint data 10 4 = off.
Proof.
  intros (A & B & C & _ & D & E & _ & F & G) L. destruct (f_read_ok data 0 14 ltac:(lia) ltac:(lia) ltac:(lia)) as (l & El & _). destruct (f_read_ok data 14 40 ltac:(lia) ltac:(lia) ltac:(lia)) as (l' & El' & _).
  split; [eauto|]. split; [eauto|]. split; [apply f_uint2; exists 66, 77; auto|]. split; [apply f_uint4; exact G|]. split; [apply f_uint2; exact F|]. split; [apply f_uint4; exact D|]. split; [apply f_uint4; exact E|apply f_uint4; exact C].
Qed.
Lemma table_len data n col : bmp_table data n col -> 0 < n -> 54 <= Z.of_nat (length data).
Proof. intros (_ & T) H. destruct (T 0 ltac:(lia)) as (r & g & b & a & _ & _ & _ & _ & D). pose proof (rd_Some_range _ _ _ D). lia. Qed.

Lemma bmp_read_ok mem data image w h off n col pix : 0 <= w < 2 ^ 31 -> 0 <= h < 2 ^ 31 -> 0 <= off -> 0 < n -> wf_img image -> bmp_head data w h 8 off -> bmp_table data n col -> bmp_pixels8 data w h off pix ->
  (forall x y, 0 <= x < w -> 0 <= y < h -> 0 <= pix x y < n) ->
  exists im, bmp_read mem data image = Some (1, im) /\ wf_img im /\ sz im = Dims w h 1 /\
    forall x y, 0 <= x < w -> 0 <= y < h -> let '(r, g, b) := col (pix x y) in rd (pixs im) (y * w + x) = Some ((r + g + b) / 3).
Proof.
  intros Hw Hh Hoff Hn W H T (Len & Px) Bp. pose proof (table_len _ _ _ T Hn) as L54. destruct (head_ok _ _ _ _ _ H L54) as ((l1 & E1) & (l2 & E2) & F1 & F2 & F3 & F4 & F5 & F6). unfold bmp_read. rewrite E1, E2, F1, F2, F3, F4, F5, F6.
  cbn [Z.eqb Pos.eqb negb orb]. destruct T as (T1 & T2). rewrite (f_uint4 _ _ _ T1). rewrite !to_int_id by lia. set (lev := fun i => let '(r, g, b) := col i in (r + g + b) / 3).
  destruct (bmp_lut_ok data (Z.to_nat n) 54 lev) as (lut & -> & Ll & Rl).
  { intros i Hi. destruct (T2 i ltac:(lia)) as (r & g & b & a & E & Q). exists r, g, b, a. split; [unfold lev; rewrite E; reflexivity|exact Q]. }
  destruct (set_size_wf mem image w h 1 W ltac:(lia) ltac:(lia) ltac:(lia)) as (im & -> & (Wd & Wi) & Si). rewrite Si in Wi. cbn [dw dh dd] in Wi.
  set (P := map (fun o => lev (pix (o mod w) (o / w))) (zseq (w * h))). assert (LP : Z.of_nat (length P) = w * h) by (unfold P; rewrite map_length, zseq_length; nia).
  destruct (scanline_stride w ltac:(lia)) as (Es & _). assert (RP : forall x y, 0 <= x < w -> 0 <= y < h -> rd P (y * w + x) = Some (lev (pix x y))).
  { intros x y Hx Hy. unfold P. rewrite rd_map, rd_zseq by nia. cbn [option_map]. replace ((y * w + x) / w) with y by (apply Z.div_unique with x; lia). replace ((y * w + x) mod w) with x by (apply Z.mod_unique with y; lia). reflexivity. }
  destruct (bmp_lines_ok data lut w h off P ltac:(lia) Hoff LP ltac:(lia)) with (m := h) (px := pixs im) as (px' & E & Lx & Rx); [|lia|lia|lia|].
  { intros x y Hx Hy. specialize (Bp x y Hx Hy). exists (pix x y), (lev (pix x y)). rewrite Es. split; [apply Px; assumption|]. split; [apply Rl; lia|apply RP; assumption]. }
  replace (off + (h - h) * bmp_scanline w) with off in E by lia. rewrite E. cbn [option_bind]. exists (Img (sz im) px'). split; [reflexivity|]. rewrite Si. split; [split; [unfold wf_dims; cbn; lia|cbn [pixs sz dw dh dd]; lia]|]. split; [reflexivity|].
  intros x y Hx Hy. cbn [pixs]. destruct (col (pix x y)) as ((r, g), b) eqn:Ec. rewrite Rx. replace (_ && _) with true by nia. rewrite RP by assumption. unfold lev. rewrite Ec. reflexivity.
Qed.

(** ** Writing *)
Lemma rd_app_l {A} (a b : list A) i : i < Z.of_nat (length a) -> rd (a ++ b) i = rd a i.
Proof. intros H. unfold rd. destruct (0 <=? i) eqn:E; [|reflexivity]. apply nth_error_app1. lia. Qed.
Lemma rd_app_r {A} (a b : list A) i : Z.of_nat (length a) <= i -> rd (a ++ b) i = rd b (i - Z.of_nat (length a)).
Proof. intros H. unfold rd. replace (0 <=? i) with true by lia. replace (0 <=? i - Z.of_nat (length a)) with true by lia. rewrite nth_error_app2 by lia. f_equal. lia. Qed.
Lemma flat_map_len {A B} (f : A -> list B) n l : (forall a, In a l -> Z.of_nat (length (f a)) = n) -> Z.of_nat (length (flat_map f l)) = n * Z.of_nat (length l).
Proof. induction l as [|a l IH]; intros H; [cbn; lia|]. cbn [flat_map length]. rewrite app_length, Nat2Z.inj_add, IH by (intros; apply H; right; assumption). rewrite H by (left; reflexivity). lia. Qed.
Lemma rd_flat_map {A B} (f : A -> list B) n : forall l i a k, (forall a, In a l -> Z.of_nat (length (f a)) = n) -> rd l i = Some a -> 0 <= k < n -> rd (flat_map f l) (n * i + k) = rd (f a) k.
Proof.
  induction l as [|b l IH]; intros i a k H R Hk; [pose proof (rd_Some_range _ _ _ R); cbn in *; lia|]. pose proof (rd_Some_range _ _ _ R). cbn [flat_map]. pose proof (H b ltac:(left; reflexivity)) as Lb. destruct (Z.eq_dec i 0) as [->|N].
  - injection R as <-. rewrite rd_app_l by lia. f_equal. lia.
  - rewrite rd_app_r by nia. replace (n * i + k - Z.of_nat (length (f b))) with (n * (i - 1) + k) by lia. apply IH; [intros; apply H; right; assumption| |exact Hk].
    rewrite <- R. unfold rd. replace (0 <=? i) with true by lia. replace (0 <=? i - 1) with true by lia. replace (Z.to_nat i) with (S (Z.to_nat (i - 1))) by lia. reflexivity.
Qed.
Lemma rd_rev_zseq h k : 0 <= k < h -> rd (rev (zseq h)) k = Some (h - 1 - k).
Proof.
  intros H. unfold rd. replace (0 <=? k) with true by lia. unfold zseq. rewrite <- map_rev, nth_error_map. pose proof (seq_length (Z.to_nat h) 0) as L.
  rewrite (nth_error_nth' _ O) by (rewrite rev_length, L; lia). rewrite rev_nth by (rewrite L; lia). rewrite L, seq_nth by lia. cbn [option_map]. f_equal. lia.
Qed.
Lemma u32_bytes v : 0 <= v < 2 ^ 32 -> v = v mod 256 + 256 * (v / 256 mod 256) + 65536 * (v / 256 / 256 mod 256) + 16777216 * (v / 256 / 256 / 256 mod 256).
Proof.
  intros H. pose proof (Z.div_mod v 256 ltac:(lia)). pose proof (Z.div_mod (v / 256) 256 ltac:(lia)). pose proof (Z.div_mod (v / 256 / 256) 256 ltac:(lia)).
  assert (v / 256 / 256 / 256 < 256) by (repeat (apply Z.div_lt_upper_bound; [lia|]); lia). assert (0 <= v / 256 / 256 / 256) by (repeat (apply Z.div_pos; [|lia]); lia). rewrite (Z.mod_small (v / 256 / 256 / 256)) by lia. lia.
Qed.

(** Nine fields in front of anything. *)
Lemma head_written (b0 b1 b2 b3 r0 r1 r2 r3 : Z) off w h bpp rest : 0 <= off < 2 ^ 32 -> 0 <= w < 2 ^ 32 -> 0 <= h < 2 ^ 32 -> 0 <= bpp < 256 ->
  bmp_head (le_bytes 2 19778 ++ [b0; b1; b2; b3] ++ [r0; r1; r2; r3] ++ le_bytes 4 off ++ le_bytes 4 40 ++ le_bytes 4 w ++ le_bytes 4 h ++ le_bytes 2 1 ++ le_bytes 2 bpp ++ le_bytes 4 0 ++ rest) w h bpp off.
Proof.
  intros Ho Hw Hh Hb. cbn [le_bytes app]. split; [reflexivity|]. split; [reflexivity|]. split; [eexists _, _, _, _; repeat (split; [reflexivity|]); apply u32_bytes; exact Ho|].
  split; [eexists _, _, _, _; repeat (split; [reflexivity|]); reflexivity|]. split; [eexists _, _, _, _; repeat (split; [reflexivity|]); apply u32_bytes; exact Hw|]. split; [eexists _, _, _, _; repeat (split; [reflexivity|]); apply u32_bytes; exact Hh|].
  split; [eexists _, _; repeat (split; [reflexivity|]); reflexivity|]. split; [eexists _, _; repeat (split; [reflexivity|]); rewrite (Z.mod_small bpp), (Z.div_small bpp) by lia; cbn; lia|]. eexists _, _, _, _; repeat (split; [reflexivity|]); reflexivity.
Qed.
