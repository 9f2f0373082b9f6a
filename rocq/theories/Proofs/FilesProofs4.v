(** BMP files: what is written; colour images. *)
From Verif Require Export Proofs.FilesProofs3.

Definition bmp_hdr (junk : Z -> Z) (w h size off bpp : Z) (tail : list Z) : list Z :=
  le_bytes 2 19778 ++ le_bytes 4 size ++ le_bytes 2 0 ++ le_bytes 2 0 ++ le_bytes 4 off ++ le_bytes 4 40 ++ le_bytes 4 w ++ le_bytes 4 h ++ le_bytes 2 1 ++ le_bytes 2 bpp ++ le_bytes 4 0 ++ tail.
Lemma bmp_hdr_ok junk w h size off bpp tail : 0 <= off < 2 ^ 32 -> 0 <= w < 2 ^ 32 -> 0 <= h < 2 ^ 32 -> 0 <= bpp < 256 -> bmp_head (bmp_hdr junk w h size off bpp tail) w h bpp off.
Proof. intros. unfold bmp_hdr. exact (head_written _ _ _ _ _ _ _ _ off w h bpp tail ltac:(assumption) ltac:(assumption) ltac:(assumption) ltac:(assumption)). Qed.
Lemma bmp_hdr_rd junk w h size off bpp tail p : 34 <= p -> rd (bmp_hdr junk w h size off bpp tail) p = rd tail (p - 34).
Proof.
  intros H. unfold bmp_hdr. rewrite !app_assoc. match goal with |- rd (?x ++ tail) _ = _ => set (a := x) end. assert (L : Z.of_nat (length a) = 34) by (unfold a; rewrite !app_length, !le_bytes_length; reflexivity).
  rewrite rd_app_r by lia. rewrite L. reflexivity.
Qed.
Lemma bmp_hdr_len junk w h size off bpp tail : Z.of_nat (length (bmp_hdr junk w h size off bpp tail)) = 34 + Z.of_nat (length tail).
Proof. unfold bmp_hdr. rewrite !app_length, !le_bytes_length. lia. Qed.

Lemma row_inside i w h d : 0 <= w -> 0 <= i < h -> 1 <= d -> (i + 1) * w <= w * h * d /\ 0 <= i * w.
Proof. intros Hw Hi Hd. assert ((i + 1) * w <= w * h) by nia. assert (w * h <= w * h * d) by nia. split; nia. Qed.

(** ** Gray levels *)
Section Write8.
  Variables (junk : Z -> Z) (im : img).
  Notation w := (width im).
  Notation h := (height im).
  Hypothesis W : wf_img im.
  Hypothesis Hd : 1 <= depth im.
  Hypothesis Hw : w < 2 ^ 31.
  Hypothesis Hh : h < 2 ^ 31.

  Definition pad8 : Z := if w mod 4 =? 0 then 0 else 4 - w mod 4.
  Definition row8 (i : Z) : list Z := firstn (Z.to_nat w) (skipn (Z.to_nat (i * w)) (pixs im)) ++ map (fun k => junk (8 + k)) (zseq pad8).
  Definition pal8 : list Z := flat_map (fun i => [i; i; i; 0]) (zseq 256).
  Lemma bmp_write_hdr : bmp_write junk im = bmp_hdr junk w h (to_uint (1078 + bmp_scanline w * h)) 1078 8
    ((le_bytes 4 0 ++ map junk (zseq 8) ++ le_bytes 4 256 ++ le_bytes 4 256) ++ pal8 ++ flat_map row8 (rev (zseq h))).
  Proof using W Hw Hh.
    destruct W as ((W1 & W2 & _) & _). unfold bmp_write, bmp_hdr. change (14 + 40 + 256 * 4) with 1078. unfold width, height in *. rewrite (to_uint_id (dw (sz im))), (to_uint_id (dh (sz im))) by lia. rewrite <- !app_assoc. reflexivity.
  Qed.

  Lemma row8_len i : 0 <= i < h -> Z.of_nat (length (row8 i)) = bmp_scanline w.
  Proof using W Hd.
    intros Hi. destruct W as ((W1 & W2 & W3) & Wl). unfold width, height, depth in *. destruct (row_inside i (dw (sz im)) (dh (sz im)) (dd (sz im)) ltac:(lia) ltac:(lia) ltac:(lia)) as (? & ?).
    unfold row8, pad8, bmp_scanline, width. pose proof (Z.mod_pos_bound (dw (sz im)) 4 ltac:(lia)). rewrite app_length, firstn_length, skipn_length, map_length, Nat2Z.inj_add.
    rewrite zseq_length by (destruct (_ =? 0); lia). destruct (Z.eqb_spec (dw (sz im) mod 4) 0); lia.
  Qed.
  Lemma row8_rd i x : 0 <= i < h -> 0 <= x < w -> rd (row8 i) x = rd (pixs im) (i * w + x).
  Proof using W Hd.
    intros Hi Hx. destruct W as ((W1 & W2 & W3) & Wl). unfold width, height, depth in *. destruct (row_inside i (dw (sz im)) (dh (sz im)) (dd (sz im)) ltac:(lia) ltac:(lia) ltac:(lia)) as (? & ?).
    unfold row8, width. rewrite rd_app_l by (rewrite firstn_length, skipn_length; lia). rewrite rd_firstn by lia. replace (x <? _) with true by lia. rewrite rd_skipn by lia. f_equal. lia.
  Qed.

  Lemma bmp_write_ok : bmp_head (bmp_write junk im) w h 8 1078 /\ bmp_table (bmp_write junk im) 256 (fun i => (i, i, i)) /\
    bmp_pixels8 (bmp_write junk im) w h 1078 (fun x y => znth 0 (pixs im) (y * w + x)).
  Proof using W Hd Hw Hh.
    assert (W0 := W). destruct W0 as ((W1 & W2 & W3) & Wl). assert (0 <= w /\ 0 <= h) as (Pw & Ph) by (split; assumption). destruct (scanline_stride w Pw) as (Es & Sw). rewrite bmp_write_hdr. set (hd2 := le_bytes 4 0 ++ _).
    assert (L2 : Z.of_nat (length hd2) = 20) by reflexivity. assert (Lp : Z.of_nat (length pal8) = 1024) by reflexivity.
    assert (Lr : Z.of_nat (length (flat_map row8 (rev (zseq h)))) = bmp_scanline w * h).
    { rewrite (flat_map_len row8 (bmp_scanline w)); [rewrite rev_length, zseq_length, Z2Nat.id by exact Ph; reflexivity|]. intros i Hi. apply in_rev, zseq_In in Hi. apply row8_len. lia. }
    split; [apply bmp_hdr_ok; lia|]. split; [split|split].
    - exists 0, 1, 0, 0. rewrite !bmp_hdr_rd by lia. repeat split; reflexivity.
    - intros i Hi. exists i, i, i, 0. split; [reflexivity|]. assert (G : forall k v, 0 <= k < 4 -> rd [i; i; i; 0] k = Some v -> rd (bmp_hdr junk w h (to_uint (1078 + bmp_scanline w * h)) 1078 8 (hd2 ++ pal8 ++ flat_map row8 (rev (zseq h)))) (54 + 4 * i + k) = Some v).
      { intros k v Hk E. rewrite bmp_hdr_rd by lia. rewrite rd_app_r by lia. rewrite rd_app_l by lia. rewrite L2. replace (54 + 4 * i + k - 34 - 20) with (4 * i + k) by lia. unfold pal8. rewrite (rd_flat_map _ 4 (zseq 256) i i); [exact E|reflexivity|apply rd_zseq; lia|lia]. }
      split; [rewrite <- (G 0 i ltac:(lia) eq_refl); f_equal; lia|]. repeat split; apply G; try lia; reflexivity.
    - rewrite bmp_hdr_len, !app_length, !Nat2Z.inj_add, L2, Lp, Lr, Es. lia.
    - intros x y Hx Hy. rewrite <- Es. assert (0 <= (h - 1 - y) * bmp_scanline w) by (apply Z.mul_nonneg_nonneg; lia). rewrite bmp_hdr_rd by lia. rewrite rd_app_r by lia. rewrite rd_app_r by lia. rewrite L2, Lp.
      replace (1078 + (h - 1 - y) * bmp_scanline w + x - 34 - 20 - 1024) with (bmp_scanline w * (h - 1 - y) + x) by lia.
      rewrite (rd_flat_map row8 (bmp_scanline w) (rev (zseq h)) (h - 1 - y) y); [|intros i Hi; apply in_rev, zseq_In in Hi; apply row8_len; lia|rewrite rd_rev_zseq by lia; f_equal; lia|lia].
      rewrite row8_rd by lia. apply rd_znth. unfold width, height, depth in *. destruct (row_inside y (dw (sz im)) (dh (sz im)) (dd (sz im)) ltac:(lia) ltac:(lia) ltac:(lia)). lia.
  Qed.
End Write8.

(** ** Colours: reading *)
Section Lines24.
  Variables (data : list Z) (w h off : Z) (pix : Z -> Z -> Z * Z * Z).
  Hypothesis Hw : 0 <= w.
  Hypothesis Hh : 0 <= h.
  Hypothesis Hoff : 0 <= off.
  Hypothesis Hpix : bmp_pixels24 (w * 3) data w h off pix.
  Definition chan (k : Z) (c : Z * Z * Z) : Z := let '(r, g, b) := c in if k =? 0 then r else if k =? 1 then g else b.
  Definition plane (k : Z) : list Z := map (fun o => chan k (pix (o mod w) (o / w))) (zseq (w * h)).
  Lemma plane_len k : Z.of_nat (length (plane k)) = w * h.
  Proof using Hw Hh. unfold plane. rewrite map_length, zseq_length; nia. Qed.
  Lemma plane_rd k x y : 0 <= x < w -> 0 <= y < h -> rd (plane k) (y * w + x) = Some (chan k (pix x y)).
  Proof using Hw Hh.
    intros Hx Hy. unfold plane. rewrite rd_map, rd_zseq by nia. cbn [option_map]. replace ((y * w + x) / w) with y by (apply Z.div_unique with x; lia). replace ((y * w + x) mod w) with x by (apply Z.mod_unique with y; lia). reflexivity.
  Qed.
  Definition filled (a n : Z) (k : Z) (px px' : list Z) : Prop := Z.of_nat (length px') = w * h /\ forall o, rd px' o = if (a <=? o) && (o <? a + n) then rd (plane k) o else rd px o.

  Lemma filled_step a n k px p1 v p2 : filled a n k px p1 -> wr p1 (a + n) v = Some p2 -> rd (plane k) (a + n) = Some v -> 0 <= n -> filled a (n + 1) k px p2.
  Proof using.
    intros (L & R) E P Hn. split; [rewrite (wr_length _ _ _ _ E); exact L|]. intros o. rewrite (rd_wr _ _ _ _ _ E), R. destruct (Z.eqb_spec (a + n) o) as [<-|N].
    - replace (_ && _) with true by lia. symmetry. exact P.
    - replace ((a <=? o) && (o <? a + (n + 1))) with ((a <=? o) && (o <? a + n)) by lia. reflexivity.
  Qed.

  Lemma rgb_line_ok j r g b : 0 <= j < h -> Z.of_nat (length r) = w * h -> Z.of_nat (length g) = w * h -> Z.of_nat (length b) = w * h ->
    exists r' g' b', bmp_rgb_line data w (off + (h - 1 - j) * (w * 3)) (r, g, b) j = Some (true, (r', g', b')) /\ filled (j * w) w 0 r r' /\ filled (j * w) w 1 g g' /\ filled (j * w) w 2 b b'.
  Proof using Hw Hh Hoff Hpix.
    intros Hj Lr Lg Lb. destruct Hpix as (Len & Px). unfold bmp_rgb_line. destruct (f_read_ok data (off + (h - 1 - j) * (w * 3)) (w * 3) ltac:(nia) ltac:(lia) ltac:(nia)) as (buf & -> & _ & R).
    match goal with |- context [fold_opt ?f (zseq w) _] => set (body := f) end.
    assert (G : forall n, 0 <= n -> n <= w -> exists r' g' b', fold_opt body (zseq n) (r, g, b) = Some (r', g', b') /\ filled (j * w) n 0 r r' /\ filled (j * w) n 1 g g' /\ filled (j * w) n 2 b b').
    { intros n Hn. pattern n. apply natlike_ind; [| |exact Hn].
      - intros _. exists r, g, b. split; [reflexivity|]. repeat split; try assumption; intros o; replace (_ && _) with false by lia; reflexivity.
      - clear n Hn. unfold Z.succ. intros n Hn IH Hl. destruct (IH ltac:(lia)) as (r1 & g1 & b1 & E1 & R1 & G1 & B1). rewrite zseq_succ by lia. rewrite fold_opt_app, E1. cbn [option_bind fold_opt].
        destruct (Px n j ltac:(lia) Hj) as (vr & vg & vb & Ec & Pb & Pg & Pr). unfold body. rewrite !R by lia.
        replace (off + (h - 1 - j) * (w * 3) + (3 * n + 2)) with (off + (h - 1 - j) * (w * 3) + 3 * n + 2) by lia. replace (off + (h - 1 - j) * (w * 3) + (3 * n + 1)) with (off + (h - 1 - j) * (w * 3) + 3 * n + 1) by lia. rewrite Pb, Pg, Pr. cbn [option_bind].
        assert (Ro : 0 <= j * w + n < w * h) by nia. destruct (wr_Some r1 (j * w + n) vr ltac:(destruct R1; lia)) as (r2 & Er). destruct (wr_Some g1 (j * w + n) vg ltac:(destruct G1; lia)) as (g2 & Eg). destruct (wr_Some b1 (j * w + n) vb ltac:(destruct B1; lia)) as (b2 & Eb).
        rewrite Er. cbn [option_bind]. rewrite Eg. cbn [option_bind]. rewrite Eb. cbn [option_bind]. exists r2, g2, b2. split; [reflexivity|].
        split; [|split]; (eapply filled_step; [eassumption|eassumption| |exact Hn]); rewrite plane_rd by lia; rewrite Ec; reflexivity. }
    destruct (G w Hw ltac:(lia)) as (r' & g' & b' & -> & Q). cbn [option_bind]. exists r', g', b'. auto.
  Qed.

  Lemma filled_join m k px p1 p2 : 0 <= m -> filled (m * w) w k px p1 -> filled 0 (m * w) k p1 p2 -> filled 0 ((m + 1) * w) k px p2.
  Proof using Hw.
    intros Hm (L1 & R1) (L2 & R2). split; [exact L2|]. intros o. rewrite R2, R1. assert (0 <= m * w) by nia. replace (0 + (m + 1) * w) with (m * w + w) by lia. cbn [Z.add].
    destruct ((0 <=? o) && (o <? m * w)) eqn:Q; [replace (_ && _) with true by lia; reflexivity|]. destruct ((m * w <=? o) && (o <? m * w + w)) eqn:Q2; [replace (_ && _) with true by lia; reflexivity|replace (_ && _) with false by lia; reflexivity].
  Qed.

  Lemma rgb_lines_ok : forall m, 0 <= m -> m <= h -> forall r g b, Z.of_nat (length r) = w * h -> Z.of_nat (length g) = w * h -> Z.of_nat (length b) = w * h ->
    exists r' g' b', bmp_rgb_lines data w (off + (h - m) * (w * 3)) (r, g, b) (rev (zseq m)) = Some (1, (r', g', b')) /\ filled 0 (m * w) 0 r r' /\ filled 0 (m * w) 1 g g' /\ filled 0 (m * w) 2 b b'.
  Proof using Hw Hh Hoff Hpix.
    intros m Hm. pattern m. apply natlike_ind; [| |exact Hm].
    - intros _ r g b Lr Lg Lb. exists r, g, b. split; [reflexivity|]. repeat split; try assumption; intros o; replace (_ && _) with false by lia; reflexivity.
    - clear m Hm. unfold Z.succ. intros m Hm IH Hl r g b Lr Lg Lb. rewrite zseq_succ, rev_app_distr by lia. cbn [rev app bmp_rgb_lines]. replace (h - (m + 1)) with (h - 1 - m) by lia.
      destruct (rgb_line_ok m r g b ltac:(lia) Lr Lg Lb) as (r1 & g1 & b1 & -> & R1 & G1 & B1). cbn [option_bind]. replace (off + (h - 1 - m) * (w * 3) + w * 3) with (off + (h - m) * (w * 3)) by lia.
      destruct (IH ltac:(lia) r1 g1 b1 ltac:(apply R1) ltac:(apply G1) ltac:(apply B1)) as (r2 & g2 & b2 & -> & R2 & G2 & B2). exists r2, g2, b2. split; [reflexivity|]. split; [|split]; eapply filled_join; eassumption.
  Qed.

  Lemma filled_all k px p : filled 0 (h * w) k px p -> p = plane k.
  Proof using Hw Hh.
    intros (L & R). pose proof (plane_len k). apply list_ext_rd; [lia|]. intros i Hi. rewrite R. replace (_ && _) with true by lia. reflexivity.
  Qed.
End Lines24.

Lemma bmp_read_rgb_ok mem data image w h off pix : 0 <= w < 2 ^ 31 -> 0 <= h < 2 ^ 31 -> 0 <= off -> 54 <= Z.of_nat (length data) -> bmp_head data w h 24 off -> bmp_pixels24 (w * 3) data w h off pix ->
  bmp_read_rgb mem data image = Some (1, Rgb3 (Dims w h 1) (plane w h pix 0) (plane w h pix 1) (plane w h pix 2)).
Proof.
  intros Hw Hh Hoff L54 H Px. destruct (head_ok _ _ _ _ _ H L54) as ((l1 & E1) & (l2 & E2) & F1 & F2 & F3 & F4 & F5 & F6). unfold bmp_read_rgb. rewrite E1, E2, F1, F2, F3, F4, F5, F6.
  cbn [Z.eqb Pos.eqb negb orb]. rewrite !to_int_id by lia. replace ((w <? 0) || (h <? 0)) with false by lia. cbn [pixs sz]. assert (Lm : Z.of_nat (length (map mem (zseq (w * h)))) = w * h) by (rewrite map_length, zseq_length; nia).
  destruct (rgb_lines_ok data w h off pix ltac:(lia) ltac:(lia) Hoff Px h ltac:(lia) ltac:(lia) _ _ _ Lm Lm Lm) as (r & g & b & E & R & G & B). replace (off + (h - h) * (w * 3)) with off in E by lia. rewrite E. cbn [option_bind].
  rewrite (filled_all w h pix ltac:(lia) ltac:(lia) 0 _ _ R), (filled_all w h pix ltac:(lia) ltac:(lia) 1 _ _ G), (filled_all w h pix ltac:(lia) ltac:(lia) 2 _ _ B). reflexivity.
Qed.

(** ** Colours: writing *)
Definition rgb_at (image : rgb) (x y : Z) : Z * Z * Z :=
  let o := y * dw (rg_sz image) + x in (znth 0 (rg_r image) o, znth 0 (rg_g image) o, znth 0 (rg_b image) o).
Section Write24.
  Variables (junk : Z -> Z) (im : rgb).
  Notation w := (dw (rg_sz im)).
  Notation h := (dh (rg_sz im)).
  Hypothesis Hw : 0 <= w < 2 ^ 31.
  Hypothesis Hh : 0 <= h < 2 ^ 31.
  Notation px24 j := (fun i => [znth 0 (rg_b im) (j * w + i); znth 0 (rg_g im) (j * w + i); znth 0 (rg_r im) (j * w + i)]).
  Definition row24 (j : Z) : list Z := flat_map (px24 j) (zseq w).

  Lemma bmp_write_rgb_ok : bmp_head (bmp_write_rgb junk im) w h 24 54 /\ bmp_pixels24 (w * 3) (bmp_write_rgb junk im) w h 54 (rgb_at im) /\ 54 <= Z.of_nat (length (bmp_write_rgb junk im)).
  Proof using Hw Hh.
    assert (E : bmp_write_rgb junk im = bmp_hdr junk w h (to_uint (to_uint (w * h * 3) + 54)) 54 24 (map junk (zseq 20) ++ flat_map row24 (rev (zseq h)))).
    { unfold bmp_write_rgb, bmp_hdr. rewrite (to_uint_id (dw (rg_sz im))), (to_uint_id (dh (rg_sz im))) by lia. reflexivity. }
    rewrite E. assert (Lrow : forall j, Z.of_nat (length (row24 j)) = w * 3) by (intros j; unfold row24; rewrite (flat_map_len _ 3) by reflexivity; rewrite zseq_length by lia; lia).
    assert (Lr : Z.of_nat (length (flat_map row24 (rev (zseq h)))) = w * 3 * h) by (rewrite (flat_map_len row24 (w * 3)) by (intros; apply Lrow); rewrite rev_length, zseq_length, Z2Nat.id by lia; reflexivity).
    assert (L2 : Z.of_nat (length (map junk (zseq 20))) = 20) by reflexivity. assert (Len : Z.of_nat (length (bmp_hdr junk w h (to_uint (to_uint (w * h * 3) + 54)) 54 24 (map junk (zseq 20) ++ flat_map row24 (rev (zseq h))))) = 54 + w * 3 * h) by (rewrite bmp_hdr_len, app_length, Nat2Z.inj_add, L2, Lr; lia).
    split; [apply bmp_hdr_ok; lia|]. split; [|rewrite Len; nia]. split; [rewrite Len; lia|]. intros x y Hx Hy. eexists _, _, _. split; [reflexivity|].
    assert (G : forall k v, 0 <= k < 3 -> rd (px24 y x) k = Some v -> rd (bmp_hdr junk w h (to_uint (to_uint (w * h * 3) + 54)) 54 24 (map junk (zseq 20) ++ flat_map row24 (rev (zseq h)))) (54 + (h - 1 - y) * (w * 3) + 3 * x + k) = Some v).
    { intros k v Hk Ev. rewrite bmp_hdr_rd by nia. rewrite rd_app_r by nia. rewrite L2. replace (54 + (h - 1 - y) * (w * 3) + 3 * x + k - 34 - 20) with (w * 3 * (h - 1 - y) + (3 * x + k)) by lia.
      rewrite (rd_flat_map row24 (w * 3) (rev (zseq h)) (h - 1 - y) y); [|intros; apply Lrow|rewrite rd_rev_zseq by lia; f_equal; lia|lia]. unfold row24. rewrite (rd_flat_map _ 3 (zseq w) x x); [exact Ev|reflexivity|apply rd_zseq; lia|lia]. }
    split; [rewrite <- (G 0 _ ltac:(lia) eq_refl); f_equal; lia|]. split; apply G; try lia; reflexivity.
  Qed.
End Write24.
