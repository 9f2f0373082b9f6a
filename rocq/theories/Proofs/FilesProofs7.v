(** Image files: round trips and failures. *)
From Verif Require Export Proofs.FilesProofs6.

(** ** A comment that ends with the file *)
Lemma skip_comments_stuck l data p f : forall fuel, skip_comments fuel (IS data p true f) (35 :: l) = None.
Proof. intros fuel. revert f. induction fuel as [|fuel IH]; intros f; [reflexivity|]. cbn. apply IH. Qed.
Lemma comment_stuck fuel k kd l : pnm_kind k = Some kd -> no_newline l -> readNetPBMFileInfo fuel (is_open ([80; 48 + k; 10] ++ 35 :: l)) = Some None.
Proof.
  intros K N. unfold readNetPBMFileInfo. rewrite at_open.
  assert (Kd : 0 <= k <= 9) by (unfold pnm_kind in K; repeat match type of K with context [if ?b then _ else _] => destruct b eqn:?; [lia|] end; discriminate).
  change ([80; 48 + k; 10] ++ ?r) with ([80; 48 + k] ++ 10 :: r). rewrite getline_nl by (intros [Q|[Q|[]]]; lia). change ([] ++ [80; 48 + k] ++ [10]) with [80; 48 + k; 10]. replace (znth 0 [80; 48 + k] 0) with 80 by reflexivity. cbn [Z.eqb Pos.eqb negb andb tl].
  assert (At : c_atoi [48 + k] = Some k).
  { apply (atoi_numeral [48 + k] k []); [|lia|discriminate]. split; [discriminate|]. split; [constructor; [unfold digit_char; lia|constructor]|]. cbn [fold_left]. lia. }
  rewrite At. cbn [option_bind]. rewrite K. destruct kd as (col, ascii). destruct fuel as [|fuel]; [reflexivity|]. cbn [skip_comments]. unfold is_tellg. rewrite at_good. rewrite getline_end by (intros [Q|Q]; [lia|exact (N Q)]).
  replace (znth 0 (35 :: l) 0) with 35 by reflexivity. cbn [Z.eqb Pos.eqb]. rewrite skip_comments_stuck. reflexivity.
Qed.

(** ** A raster of bits *)
Lemma chunk_concat (n : nat) : forall h (l : list Z), (h * n <= length l)%nat -> exists rows r, l = concat rows ++ r /\ length rows = h /\ Forall (fun row => length row = n) rows.
Proof.
  induction h as [|h IH]; intros l H; [exists [], l; auto|]. destruct (IH (skipn n l)) as (rows & r & E & L & A); [rewrite skipn_length; lia|]. exists (firstn n l :: rows), r. cbn [concat length]. split; [rewrite <- app_assoc, <- E, firstn_skipn; reflexivity|].
  split; [lia|]. constructor; [rewrite firstn_length; lia|exact A].
Qed.
Lemma concat_flat {A} (rows : list (list A)) : concat rows = flat_map (fun r => r) rows.
Proof. induction rows; [reflexivity|]. cbn. congruence. Qed.

Lemma pbm_read_bits fuel t mem image cs w h a raster : netpbm_binary 4 cs w h a -> (length cs < fuel)%nat -> 0 <= w < 2 ^ 64 -> 0 <= h < 2 ^ 64 -> h * ((w + 7) / 8) <= Z.of_nat (length raster) -> Forall (fun b => 0 <= b < 256) raster ->
  exists im, pbm_read fuel t mem (a ++ raster) image = Some (Some (1, im)) /\ wf_img im /\ sz im = Dims w h 1 /\
    forall x y b, 0 <= x < w -> 0 <= y < h -> rd raster (y * ((w + 7) / 8) + x / 8) = Some b -> pixel_is im x y 0 (if Z.testbit b (7 - x mod 8) then tmax t else 0).
Proof.
  intros A F Hw Hh Hl B. set (nb := (w + 7) / 8) in *. assert (Hnb : 0 <= nb) by (apply Z.div_pos; lia). destruct (chunk_concat (Z.to_nat nb) (Z.to_nat h) raster ltac:(nia)) as (rows & r & E & L & Lr).
  assert (Br : Forall (fun row => Forall (fun b => 0 <= b < 256) row /\ Z.of_nat (length row) = nb) rows).
  { rewrite Forall_forall in *. intros row Hr. split; [|rewrite (Lr row Hr); lia]. rewrite Forall_forall. intros b Hb. apply B. rewrite E, in_app_iff. left. apply in_concat. eauto. }
  rewrite E. rewrite (pbm_read_p4 fuel t mem image cs w h a rows r A F Hw Hh ltac:(lia) Br). eexists. split; [reflexivity|].
  assert (Lb : forall row, Z.of_nat (length (pbm_bits t row w)) = w) by (intros row; unfold pbm_bits; rewrite map_length, zseq_length; lia).
  split; [split; [unfold wf_dims; cbn; lia|]; cbn [pixs sz dw dh dd]; rewrite (flat_map_len _ w) by (intros; apply Lb); rewrite L; nia|]. split; [reflexivity|]. intros x y b Hx Hy Rb. split; [unfold inside; cbn; lia|].
  cbn [pixs sz dw dh dd]. unfold voxel_offset. replace (x + w * (y + h * 0)) with (w * y + x) by lia. destruct (rd_in_range rows y ltac:(lia)) as (row & Ry).
  rewrite (rd_flat_map _ w rows y row) by (first [intros; apply Lb | exact Ry | lia]). unfold pbm_bits. rewrite rd_map, rd_zseq by lia. cbn [option_map].
  assert (Rr : Z.of_nat (length row) = nb) by (rewrite Forall_forall in Br; apply Br; eapply rd_In; exact Ry). assert (Hxb : 0 <= x / 8 < nb) by (unfold nb; split; [apply Z.div_pos; lia|]; pose proof (Z.div_mod x 8 ltac:(lia)); pose proof (Z.mod_pos_bound x 8 ltac:(lia)); apply Z.div_le_lower_bound with (b := 8) (a := w + 7) (q := x / 8 + 1) in H || idtac; enough (x / 8 + 1 <= (w + 7) / 8) by lia; apply Z.div_le_lower_bound; lia).
  assert (Eb : rd row (x / 8) = Some b).
  { rewrite <- Rb, concat_flat, rd_app_l. 2:{ rewrite (flat_map_len _ nb) by (intros q Hq; rewrite Forall_forall in Br; apply Br; exact Hq). rewrite L, Z2Nat.id by lia. nia. }
    rewrite Z.mul_comm. symmetry. apply (rd_flat_map (fun r : list Z => r) nb rows y row); [intros q Hq; rewrite Forall_forall in Br; apply Br; exact Hq|exact Ry|exact Hxb]. }
  rewrite (znth_rd 0 _ _ _ Eb). reflexivity.
Qed.

(** ** PGM *)
Lemma pgm_roundtrip fuel vs mem im image name : wf_img im -> wf_img image -> 1 <= depth im -> width im < 2 ^ 31 -> height im < 2 ^ 31 -> width im * height im < 2 ^ 31 -> no_newline name -> (2 <= fuel)%nat ->
  pgm_read fuel vs mem (pgm_write name im) image = Some (Some (1, Img (Dims (width im) (height im) 1) (firstn (Z.to_nat (width im * height im)) (pixs im)))).
Proof.
  intros W Wi Hd Hw Hh Hn N F. destruct (pgm_write_gray name im N W) as (a & A & ->). destruct W as ((W1 & W2 & W3) & Wl). unfold width, height, depth in *. rewrite <- (app_nil_r (firstn _ _)) at 1.
  apply (pgm_read_binary fuel vs mem image [32 :: name] _ _ 255); [exact A|cbn; lia|lia|lia|lia|lia|exact Wi|]. rewrite firstn_length. assert (dw (sz im) * dh (sz im) <= dw (sz im) * dh (sz im) * dd (sz im)) by nia. nia.
Qed.
Lemma flat_img im : wf_img im -> depth im = 1 -> Img (Dims (width im) (height im) 1) (firstn (Z.to_nat (width im * height im)) (pixs im)) = im.
Proof.
  intros (_ & L) D. unfold width, height, depth in *. rewrite D in L. rewrite firstn_all2 by lia. destruct im as ((a, b, c), p). cbn in *. subst. reflexivity.
Qed.
Lemma pgm_read_overflow fuel vs mem image cs w h mx a r : netpbm_gray 5 cs w h mx a -> (length cs < fuel)%nat -> 0 <= w < 2 ^ 31 -> 0 <= h < 2 ^ 31 -> 2 ^ 31 <= w * h -> mx < 2 ^ 32 -> pgm_read fuel vs mem (a ++ r) image = None.
Proof.
  intros A F Hw Hh Hn Hm. unfold pgm_read. destruct (pnm_gray fuel 5 false cs w h mx a r eq_refl A F ltac:(lia) ltac:(lia) Hm) as (pre & ->). cbn [fuel_bind Z.eqb Pos.eqb negb pn_color pn_w pn_h pn_ascii]. rewrite !to_int_id by lia.
  unfold set_size. replace ((w <? 0) || (h <? 0) || (1 <? 0)) with false by lia. replace (w * h <? 2 ^ 31) with false by lia. reflexivity.
Qed.

(** ** BMP *)
Lemma bmp_roundtrip mem junk im image : wf_img im -> wf_img image -> typed_img UINT8 im -> 1 <= depth im -> width im < 2 ^ 31 -> height im < 2 ^ 31 ->
  bmp_read mem (bmp_write junk im) image = Some (1, Img (Dims (width im) (height im) 1) (firstn (Z.to_nat (width im * height im)) (pixs im))).
Proof.
  intros W Wi T Hd Hw Hh. destruct (bmp_write_ok junk im W Hd Hw Hh) as (H & Tb & Px). assert (W0 := W). destruct W0 as ((W1 & W2 & W3) & Wl). unfold width, height, depth in *.
  assert (In8 : forall x y, 0 <= x < dw (sz im) -> 0 <= y < dh (sz im) -> exists v, rd (pixs im) (y * dw (sz im) + x) = Some v /\ 0 <= v < 256).
  { intros x y Hx Hy. destruct (row_inside y (dw (sz im)) (dh (sz im)) (dd (sz im)) W1 Hy Hd). destruct (rd_in_range (pixs im) (y * dw (sz im) + x) ltac:(lia)) as (v & R). exists v. split; [exact R|]. unfold typed_img in T. rewrite Forall_forall in T. specialize (T v (rd_In _ _ _ R)). unfold inty, tmin, tmax in T. cbn in T. lia. }
  destruct (bmp_read_ok mem (bmp_write junk im) image (dw (sz im)) (dh (sz im)) 1078 256 (fun i => (i, i, i)) (fun x y => znth 0 (pixs im) (y * dw (sz im) + x)) ltac:(lia) ltac:(lia) ltac:(lia) ltac:(lia) Wi H Tb Px) as (out & E & Wo & So & P).
  { intros x y Hx Hy. destruct (In8 x y Hx Hy) as (v & R & Hv). rewrite (znth_rd 0 _ _ _ R). exact Hv. }
  rewrite E. f_equal. f_equal. apply img_ext; [exact Wo| |exact So|].
  { split; [unfold wf_dims; cbn; lia|]. cbn [pixs sz dw dh dd]. rewrite firstn_length. assert (dw (sz im) * dh (sz im) <= dw (sz im) * dh (sz im) * dd (sz im)) by nia. nia. }
  intros x y z v ((H1 & H2 & H3) & R). rewrite So in *. cbn [dw dh dd] in *. assert (z = 0) as -> by lia. split; [unfold inside; cbn; lia|]. cbn [pixs sz dw dh dd]. unfold voxel_offset in *. assert (Vo : x + dw (sz im) * (y + dh (sz im) * 0) = y * dw (sz im) + x) by ring. rewrite Vo in *.
  destruct (In8 x y H1 H2) as (u & Ru & Hu). specialize (P x y H1 H2). rewrite (znth_rd 0 _ _ _ Ru) in P. rewrite R in P. injection P as ->. assert (Bi : 0 <= y * dw (sz im) + x < dw (sz im) * dh (sz im)) by nia. rewrite rd_firstn by lia. rewrite Z2Nat.id by lia. replace (_ <? _) with true by lia. rewrite Ru. f_equal.
  replace (u + u + u) with (u * 3) by lia. rewrite Z.div_mul by lia. reflexivity.
Qed.

Definition wf_rgb (im : rgb) : Prop :=
  let n := dw (rg_sz im) * dh (rg_sz im) * dd (rg_sz im) in
  wf_dims (rg_sz im) /\ Z.of_nat (length (rg_r im)) = n /\ Z.of_nat (length (rg_g im)) = n /\ Z.of_nat (length (rg_b im)) = n.
Lemma bmp_rgb_roundtrip mem junk im image : wf_rgb im -> dd (rg_sz im) = 1 -> dw (rg_sz im) < 2 ^ 31 -> dh (rg_sz im) < 2 ^ 31 -> bmp_read_rgb mem (bmp_write_rgb junk im) image = Some (1, im).
Proof.
  intros ((W1 & W2 & _) & Lr & Lg & Lb) Hd Hw Hh. rewrite Hd in Lr, Lg, Lb. destruct (bmp_write_rgb_ok junk im ltac:(lia) ltac:(lia)) as (H & Px & L54). rewrite (bmp_read_rgb_ok mem _ image (dw (rg_sz im)) (dh (rg_sz im)) 54 (rgb_at im) ltac:(lia) ltac:(lia) ltac:(lia) L54 H Px). f_equal. f_equal.
  set (w := dw (rg_sz im)) in *. set (h := dh (rg_sz im)) in *.
  assert (G : forall k (l : list Z), Z.of_nat (length l) = w * h * 1 -> (forall x y, chan k (rgb_at im x y) = znth 0 l (y * w + x)) -> plane w h (rgb_at im) k = l).
  { intros k l Ll Hc. pose proof (plane_len w h (rgb_at im) W1 W2 k) as Lp. apply list_ext_rd; [lia|]. intros i Hi. assert (0 < w) by nia. pose proof (Z.div_mod i w ltac:(lia)). pose proof (Z.mod_pos_bound i w ltac:(lia)). assert (0 <= i / w < h) by (split; [apply Z.div_pos; lia|apply Z.div_lt_upper_bound; lia]).
    replace i with (i / w * w + i mod w) by lia. rewrite plane_rd by lia. rewrite Hc. symmetry. apply rd_znth. lia. }
  rewrite (G 0 (rg_r im)), (G 1 (rg_g im)), (G 2 (rg_b im)) by (first [assumption | reflexivity]). unfold w, h. destruct im as (s, r, g, b). destruct s. cbn in *. subst. reflexivity.
Qed.

(** ** Colour tables and padding *)
Lemma bmp_empty_table mem data image w h off b : 0 < w < 2 ^ 31 -> 0 < h < 2 ^ 31 -> 0 <= off -> wf_img image -> 54 <= Z.of_nat (length data) -> bmp_head data w h 8 off -> u32 data 46 0 -> off + h * bmp_stride w 8 <= Z.of_nat (length data) -> rd data off = Some b ->
  bmp_read mem data image = None.
Proof.
  intros Hw Hh Hoff W L54 H T Len Rb. destruct (head_ok _ _ _ _ _ H L54) as ((l1 & E1) & (l2 & E2) & F1 & F2 & F3 & F4 & F5 & F6). unfold bmp_read. rewrite E1, E2, F1, F2, F3, F4, F5, F6. cbn [Z.eqb Pos.eqb negb orb].
  rewrite (f_uint4 _ _ _ T). cbn [Z.to_nat bmp_lut]. rewrite !to_int_id by lia. destruct (set_size_wf mem image w h 1 W ltac:(lia) ltac:(lia) ltac:(lia)) as (im & -> & _ & _).
  replace h with (h - 1 + 1) by lia. rewrite zseq_succ, rev_app_distr by lia. cbn [rev app bmp_lines]. unfold bmp_line. destruct (scanline_stride w ltac:(lia)) as (Es & Sw). rewrite <- Es in Len.
  destruct (f_read_ok data off (bmp_scanline w) Hoff ltac:(lia) ltac:(nia)) as (buf & -> & _ & R). replace w with (Z.of_nat (S (Z.to_nat (w - 1)))) by lia. rewrite zseq_cons. cbn [fold_opt]. rewrite R by lia. rewrite Z.add_0_r, Rb. cbn [option_bind].
  replace (rd [] b) with (@None Z) by (unfold rd; destruct (0 <=? b); [destruct (Z.to_nat b)|]; reflexivity). all: first [reflexivity | lia].
Qed.

(** ** Bytes of a RAW file *)
Lemma rd_le_bytes : forall n v k, 0 <= k < Z.of_nat n -> rd (le_bytes n v) k = Some ((v / 256 ^ k) mod 256).
Proof.
  induction n as [|n IH]; intros v k Hk; [lia|]. cbn [le_bytes]. destruct (Z.eq_dec k 0) as [->|N].
  { unfold rd. cbn [Z.leb Z.compare Z.to_nat nth_error]. change (256 ^ 0) with 1. rewrite Z.div_1_r. reflexivity. }
  change (v mod 256 :: le_bytes n (v / 256)) with ([v mod 256] ++ le_bytes n (v / 256)). rewrite rd_app_r by (cbn; lia). cbn [length Z.of_nat Pos.of_succ_nat]. rewrite IH by lia. f_equal. f_equal. replace k with (1 + (k - 1)) at 2 by lia. rewrite Z.pow_add_r by lia. change (256 ^ 1) with 256. rewrite Z.div_div by (try apply Z.pow_pos_nonneg; lia). reflexivity.
Qed.
Lemma raw_bytes t im i v k : rd (pixs im) i = Some v -> 0 <= k < nbits t / 8 -> rd (raw_write t im) (i * (nbits t / 8) + k) = Some ((v / 256 ^ k) mod 256).
Proof.
  intros R Hk. unfold raw_write. rewrite Z.mul_comm. assert (Tb : Z.of_nat (tbytes t) = nbits t / 8) by (destruct t; reflexivity). rewrite (rd_flat_map (encode t) (nbits t / 8) (pixs im) i v).
  - unfold encode. apply rd_le_bytes. lia.
  - intros a _. unfold encode. rewrite le_bytes_length. exact Tb.
  - exact R.
  - exact Hk.
Qed.

(** ** VTK *)
Lemma vtk_unnamed fuel t mem im image : ~ known t -> wf_img im -> width im < 2 ^ 31 -> height im < 2 ^ 31 -> depth im < 2 ^ 31 -> width im * height im * depth im < 2 ^ 31 -> (10 <= fuel)%nat -> vtk_read fuel t mem (vtk_write t im) image = None.
Proof.
  intros K W Hw Hh Hd Hn F. destruct W as ((W1 & W2 & W3) & _). rewrite vtk_write_split. unfold vtk_read, width, height, depth in *. rewrite vtk_header_unnamed; [reflexivity|exact K|lia|lia|lia| |exact F]. split; [|lia]. apply Z.mul_nonneg_nonneg; [|lia]. apply Z.mul_nonneg_nonneg; lia.
Qed.
Lemma vtk_newline fuel t mem im image v0 : known t -> wf_img im -> width im * height im * depth im < 2 ^ 31 -> pixel_is im 0 (height im - 1) 0 v0 -> rd (venc t v0) 0 = Some 10 -> (11 <= fuel)%nat -> vtk_read fuel t mem (vtk_write t im) image = None.
Proof.
  intros K W Hn P R F. destruct (vtk_first t im v0 W P) as (D & E). rewrite vtk_write_split, E. destruct P as ((P1 & P2 & P3) & _). destruct W as ((W1 & W2 & W3) & _). unfold vtk_read, width, height, depth in *.
  assert (exists D', venc t v0 ++ D = 10 :: D') as (D' & ->) by (destruct (venc t v0) as [|b l]; [discriminate|]; injection R as ->; cbn; eauto). set (a := dw (sz im)) in *. set (b := dh (sz im)) in *. set (c := dd (sz im)) in *. assert (A1 : a <= a * b) by nia. assert (A2 : b <= a * b) by nia. assert (A3 : a * b <= a * b * c) by nia. assert (A4 : c <= a * b * c) by nia.
  rewrite vtk_header_newline; [reflexivity|exact K|lia|lia|lia|lia|exact F].
Qed.
