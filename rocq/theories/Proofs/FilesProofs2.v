(** PGM, PBM and RAW files. *)
From Verif Require Export Proofs.FilesProofs.

Lemma img_eq im : Img (sz im) (pixs im) = im.
Proof. destruct im. reflexivity. Qed.

(** ** PGM *)
Lemma pgm_read_binary fuel vs mem image cs w h mx a px r : netpbm_gray 5 cs w h mx a -> (length cs < fuel)%nat -> 0 <= w < 2 ^ 31 -> 0 <= h < 2 ^ 31 -> w * h < 2 ^ 31 -> mx < 2 ^ 32 -> wf_img image -> Z.of_nat (length px) = w * h ->
  pgm_read fuel vs mem (a ++ px ++ r) image = Some (Some (1, Img (Dims w h 1) px)).
Proof.
  intros A F Hw Hh Hn Hm W Hl. unfold pgm_read. destruct (pnm_gray fuel 5 false cs w h mx a (px ++ r) eq_refl A F ltac:(lia) ltac:(lia) Hm) as (pre & ->).
  cbn [fuel_bind Z.eqb Pos.eqb negb pn_color pn_w pn_h pn_ascii]. rewrite !to_int_id by lia. destruct (set_size_wf mem image w h 1 W ltac:(lia) ltac:(lia) ltac:(lia)) as (im & -> & Wi & Si).
  replace (w * h <? 2 ^ 31) with true by lia. cbn [negb]. rewrite read_at by lia. cbn [fst]. rewrite overwrite_all; [rewrite Si; reflexivity|]. destruct Wi as (_ & Wi). rewrite Si in Wi. cbn in Wi. lia.
Qed.
Lemma blanks_one c : white c -> blanks [c].
Proof. intros H. split; [discriminate|constructor; [exact H|constructor]]. Qed.
Lemma pgm_write_gray name im : no_newline name -> wf_img im -> exists a, netpbm_gray 5 [32 :: name] (width im) (height im) 255 a /\ pgm_write name im = a ++ firstn (Z.to_nat (width im * height im)) (pixs im).
Proof.
  intros N ((W1 & W2 & _) & _). eexists. split.
  - exists (str "P5" ++ [10] ++ str "# " ++ name ++ [10] ++ dec (width im) ++ str " " ++ dec (height im)), [10], (str "255"), 10. split; [|split; [apply blanks_one; right; lia|split; [exact (dec_numeral 255 ltac:(lia))|split; [right; lia|reflexivity]]]].
    split; [constructor; [|constructor]; intros [Q|Q]; [lia|exact (N Q)]|]. exists (dec (width im)), [32], (dec (height im)). split; [apply dec_numeral; exact W1|]. split; [apply blanks_one; left; reflexivity|]. split; [apply dec_numeral; exact W2|].
    cbn [flat_map app]. repeat (rewrite <- !app_assoc; cbn [app]). reflexivity.
  - unfold pgm_write. repeat (rewrite <- !app_assoc; cbn [app]). reflexivity.
Qed.

(** ** ASCII PGM *)
Notation pgm_text := (flat_map (fun w : list Z * list Z => fst w ++ snd w)).
Lemma wr4 (buf : list Z) i (b0 b1 b2 b3 : Z) : 0 <= i -> i + 3 < Z.of_nat (length buf) ->
  exists buf', fold_opt (fun buf '(k, b) => wr buf (i + k) b) (combine [0; 1; 2; 3] [b0; b1; b2; b3]) buf = Some buf' /\ length buf' = length buf /\ rd buf' i = Some b0 /\ (forall k, k < i -> rd buf' k = rd buf k).
Proof.
  intros Hi Hl. cbn [combine fold_opt]. destruct (wr_Some buf (i + 0) b0 ltac:(lia)) as (f0 & E0). pose proof (wr_length _ _ _ _ E0). destruct (wr_Some f0 (i + 1) b1 ltac:(lia)) as (f1 & E1). pose proof (wr_length _ _ _ _ E1).
  destruct (wr_Some f1 (i + 2) b2 ltac:(lia)) as (f2 & E2). pose proof (wr_length _ _ _ _ E2). destruct (wr_Some f2 (i + 3) b3 ltac:(lia)) as (f3 & E3). pose proof (wr_length _ _ _ _ E3). rewrite E0, E1, E2, E3. exists f3. split; [reflexivity|]. split; [congruence|].
  split; [|intros k Hk]; rewrite (rd_wr _ _ _ _ _ E3), (rd_wr _ _ _ _ _ E2), (rd_wr _ _ _ _ _ E1), (rd_wr _ _ _ _ _ E0); repeat match goal with |- context [?a =? ?b] => destruct (Z.eqb_spec a b); try lia end; reflexivity.
Qed.
Lemma wr4_None (buf : list Z) i (b0 b1 b2 b3 : Z) : Z.of_nat (length buf) <= i + 3 -> fold_opt (fun buf '(k, b) => wr buf (i + k) b) (combine [0; 1; 2; 3] [b0; b1; b2; b3]) buf = None.
Proof.
  intros Hl. cbn [combine fold_opt]. destruct (wr buf (i + 0) b0) as [f0|] eqn:E0; [|reflexivity]. pose proof (wr_length _ _ _ _ E0). destruct (wr f0 (i + 1) b1) as [f1|] eqn:E1; [|reflexivity]. pose proof (wr_length _ _ _ _ E1).
  destruct (wr f1 (i + 2) b2) as [f2|] eqn:E2; [|reflexivity]. pose proof (wr_length _ _ _ _ E2). destruct (wr f2 (i + 3) b3) as [f3|] eqn:E3; [|reflexivity]. apply wr_Some_range in E3. lia.
Qed.

Section AsciiPgm.
  Variables (maxval : Z).
  Hypothesis Hm : 0 < maxval.
  Hypothesis Hm2 : maxval * 255 < 2 ^ 31.
  Notation word_ok := (fun v w => numeral (fst w) v /\ blanks (snd w)).
  Notation in_max := (fun v => v <= maxval).

  Lemma ascii_pixel_step pre lead v wd r buf i : Forall white lead -> word_ok v wd -> v <= maxval -> 0 <= i -> i + 3 < Z.of_nat (length buf) ->
    exists pre' buf', pgm_ascii_pixel maxval (at_ pre (lead ++ pgm_text (wd :: r)), buf) i = Some (at_ pre' (snd wd ++ pgm_text r), buf') /\
      length buf' = length buf /\ rd buf' i = Some (v * 255 / maxval) /\ (forall k, k < i -> rd buf' k = rd buf k).
  Proof using Hm Hm2.
    intros L (Nv & (Ns & S)) Hv Hi Hl. destruct wd as (nv, [|s sp]); [cbn in Ns; congruence|]. unfold pgm_ascii_pixel. cbn [fst snd flat_map] in *. pose proof (numeral_pos _ _ Nv). inversion S as [|? ? S1 S2]; subst.
    rewrite <- app_assoc. cbn [app]. unfold is_int. rewrite (extract_dec _ _ _ _ nv v) by (first [assumption | lia | apply white_not_digit; assumption]). cbn [option_bind].
    assert (v * 255 <= maxval * 255) by nia. replace ((- 2 ^ 31 <=? v * 255) && (v * 255 <? 2 ^ 31)) with true by lia. replace (maxval =? 0) with false by lia. cbn [negb orb].
    rewrite to_uint_id by lia. set (q := v * 255 / maxval). assert (Hq : 0 <= q < 256) by (unfold q; split; [apply Z.div_pos; lia|apply Z.div_lt_upper_bound; nia]).
    cbn [le_bytes]. destruct (wr4 buf i (q mod 256) (q / 256 mod 256) (q / 256 / 256 mod 256) (q / 256 / 256 / 256 mod 256) Hi Hl) as (buf' & -> & B1 & B2 & B3). rewrite (Z.mod_small q 256) in B2 by lia.
    cbn [option_bind]. exists (pre ++ lead ++ nv), buf'. auto.
  Qed.

  Lemma ascii_pixel_None pre lead v wd r buf i : Forall white lead -> word_ok v wd -> v <= maxval -> Z.of_nat (length buf) <= i + 3 ->
    pgm_ascii_pixel maxval (at_ pre (lead ++ pgm_text (wd :: r)), buf) i = None.
  Proof using Hm Hm2.
    intros L (Nv & (Ns & S)) Hv Hl. destruct wd as (nv, [|s sp]); [cbn in Ns; congruence|]. unfold pgm_ascii_pixel. cbn [fst snd flat_map] in *. inversion S as [|? ? S1 S2]; subst.
    rewrite <- app_assoc. cbn [app]. unfold is_int. rewrite (extract_dec _ _ _ _ nv v) by (first [assumption | lia | apply white_not_digit; assumption]). cbn [option_bind le_bytes]. rewrite wr4_None by exact Hl.
    destruct (_ || _); reflexivity.
  Qed.

  Lemma zseq_cons n : zseq (Z.of_nat (S n)) = 0 :: map (fun k => k + 1) (zseq (Z.of_nat n)).
  Proof using. unfold zseq. rewrite !Nat2Z.id. cbn [seq map]. f_equal. rewrite <- seq_shift, !map_map. apply map_ext. lia. Qed.

  Lemma ascii_fold : forall l words i pre lead buf, 0 <= i -> Forall2 word_ok l words -> Forall in_max l -> Forall white lead -> i + Z.of_nat (length l) + 2 < Z.of_nat (length buf) \/ l = [] ->
    exists st buf', fold_opt (pgm_ascii_pixel maxval) (map (fun k => i + k) (zseq (Z.of_nat (length l)))) (at_ pre (lead ++ pgm_text words), buf) = Some (st, buf') /\ length buf' = length buf /\
      (forall k, k < i -> rd buf' k = rd buf k) /\ (forall k, 0 <= k < Z.of_nat (length l) -> rd buf' (i + k) = option_map (fun v => v * 255 / maxval) (rd l k)).
  Proof using Hm Hm2.
    induction l as [|v l IH]; intros words i pre lead buf Hi A X L Hl; inversion A as [|? wd ? ws A1 A2]; subst.
    - cbn. eexists _, buf. repeat split; auto. intros k Hk. lia.
    - destruct Hl as [Hl|]; [|discriminate]. inversion X as [|? ? X1 X2]; subst. cbn [length] in *. rewrite zseq_cons.
      cbn [map fold_opt]. rewrite Z.add_0_r. destruct (ascii_pixel_step pre lead v wd ws buf i L A1 X1 Hi ltac:(lia)) as (pre' & b1 & -> & B1 & B2 & B3).
      rewrite map_map. erewrite (map_ext _ (fun k => (i + 1) + k)) by (intros; lia). destruct (IH ws (i + 1) pre' (snd wd) b1 ltac:(lia) A2 X2) as (st & b2 & E & C1 & C2 & C3); [apply A1|left; lia|].
      exists st, b2. split; [exact E|]. split; [congruence|]. split; [intros k Hk; rewrite C2, B3 by lia; reflexivity|]. intros k Hk. destruct (Z.eq_dec k 0) as [->|Nk].
      + rewrite Z.add_0_r, C2, B2 by lia. reflexivity.
      + replace (i + k) with (i + 1 + (k - 1)) by lia. rewrite C3 by lia. f_equal. unfold rd. replace (0 <=? k) with true by lia. replace (0 <=? k - 1) with true by lia. replace (Z.to_nat k) with (S (Z.to_nat (k - 1))) by lia. reflexivity.
  Qed.

  (** Too few cells after the last pixel. *)
  Lemma ascii_fold_None : forall l words i pre lead buf, 0 <= i -> Forall2 word_ok l words -> Forall in_max l -> Forall white lead -> l <> [] -> Z.of_nat (length buf) <= i + Z.of_nat (length l) + 2 ->
    fold_opt (pgm_ascii_pixel maxval) (map (fun k => i + k) (zseq (Z.of_nat (length l)))) (at_ pre (lead ++ pgm_text words), buf) = None.
  Proof using Hm Hm2.
    induction l as [|v l IH]; intros words i pre lead buf Hi A X L Hn Hl; [congruence|]. inversion A as [|? wd ? ws A1 A2]; inversion X as [|? ? X1 X2]; subst. cbn [length] in *. rewrite zseq_cons.
    cbn [map fold_opt]. rewrite Z.add_0_r. destruct (Z.le_gt_cases (Z.of_nat (length buf)) (i + 3)) as [Q|Q]; [rewrite (ascii_pixel_None _ _ v) by assumption; reflexivity|].
    destruct (ascii_pixel_step pre lead v wd ws buf i L A1 X1 Hi ltac:(lia)) as (pre' & b1 & -> & B1 & B2 & B3).
    rewrite map_map. erewrite (map_ext _ (fun k => (i + 1) + k)) by (intros; lia). apply IH; [lia|exact A2|exact X2|apply A1| |lia]. intros ->. cbn in *. lia.
  Qed.
End AsciiPgm.

Lemma fold_opt_ext {A B} (f g : A -> B -> option A) l a : (forall a b, f a b = g a b) -> fold_opt f l a = fold_opt g l a.
Proof. intros H. revert a. induction l as [|b l IH]; intros a; [reflexivity|]. cbn. rewrite H. destruct (g a b); [apply IH|reflexivity]. Qed.

Lemma cells_len vs n : 0 < vs -> buffer_cells vs n - n = vs - n mod vs /\ 0 <= n mod vs < vs.
Proof. intros Hv. pose proof (Z.mod_pos_bound n vs Hv). pose proof (Z.div_mod n vs ltac:(lia)). unfold buffer_cells. split; lia. Qed.

Section P2.
  Variables (fuel : nat) (vs : Z) (mem : Z -> Z) (image : img) (cs : list (list Z)) (w h mx : Z) (a l text : list Z).
  Hypothesis A : netpbm_gray 2 cs w h mx a.
  Hypothesis F : (length cs < fuel)%nat.
  Hypothesis Hw : 0 <= w < 2 ^ 31.
  Hypothesis Hh : 0 <= h < 2 ^ 31.
  Hypothesis Hm : 0 < mx.
  Hypothesis Hm2 : mx * 255 < 2 ^ 31.
  Hypothesis W : wf_img image.
  Hypothesis Hl : Z.of_nat (length l) = w * h.
  Hypothesis Ol : Forall (fun v => v <= mx) l.
  Hypothesis Tx : ascii_values l text.
  Hypothesis Hv : 0 < vs.

  Lemma pgm_read_p2 : (w * h) mod vs < vs - 2 -> pgm_read fuel vs mem (a ++ text) image = Some (Some (1, Img (Dims w h 1) (map (fun v => v * 255 / mx) l))).
  Proof using A F Hw Hh Hm Hm2 W Hl Ol Tx Hv.
    intros Hmod. unfold pgm_read. destruct (pnm_gray fuel 2 true cs w h mx a text eq_refl A F ltac:(lia) ltac:(lia) ltac:(lia)) as (pre & ->).
    cbn [fuel_bind Z.eqb Pos.eqb negb pn_color pn_w pn_h pn_ascii pn_max]. rewrite !to_int_id by lia. destruct (set_size_wf mem image w h 1 W ltac:(lia) ltac:(lia) ltac:(lia)) as (im & -> & (_ & Wi) & Si). rewrite Si in Wi. cbn [dw dh dd] in Wi.
    destruct (cells_len vs (w * h) Hv) as (Ec & Rc). rewrite (fold_opt_ext _ (pgm_ascii_pixel mx)) by reflexivity. set (buf := pixs im ++ _). assert (Lb : Z.of_nat (length buf) = w * h + (vs - (w * h) mod vs)) by (unfold buf; rewrite app_length, map_length, Nat2Z.inj_add, zseq_length; lia).
    destruct Tx as (words & T1 & ->). destruct (ascii_fold mx Hm Hm2 l words 0 pre [] buf ltac:(lia) T1 Ol ltac:(constructor) ltac:(left; lia)) as (st & b & E & B1 & _ & B3). rewrite Hl in E. erewrite (map_ext _ (fun k => k)), map_id in E by (intros; lia). cbn [app] in E. rewrite E. cbn [option_bind].
    f_equal. f_equal. f_equal. rewrite Si. f_equal. apply list_ext_rd.
    - rewrite firstn_length, map_length. lia.
    - intros i _. destruct (Z.lt_ge_cases i 0) as [Q|Q]; [rewrite !rd_out by lia; reflexivity|]. destruct (Z.lt_ge_cases i (w * h)) as [Q2|Q2].
      + rewrite rd_firstn by lia. specialize (B3 i ltac:(lia)). cbn [Z.add] in B3. rewrite B3, rd_map. replace (i <? _) with true by lia. reflexivity.
      + rewrite !rd_out by (rewrite ?firstn_length, ?map_length; lia). reflexivity.
  Qed.

  Lemma pgm_read_p2_outside : 0 < w * h -> vs - 2 <= (w * h) mod vs -> pgm_read fuel vs mem (a ++ text) image = None.
  Proof using A F Hw Hh Hm Hm2 W Hl Ol Tx Hv.
    intros Hp Hmod. unfold pgm_read. destruct (pnm_gray fuel 2 true cs w h mx a text eq_refl A F ltac:(lia) ltac:(lia) ltac:(lia)) as (pre & ->).
    cbn [fuel_bind Z.eqb Pos.eqb negb pn_color pn_w pn_h pn_ascii pn_max]. rewrite !to_int_id by lia. destruct (set_size_wf mem image w h 1 W ltac:(lia) ltac:(lia) ltac:(lia)) as (im & -> & (_ & Wi) & Si). rewrite Si in Wi. cbn [dw dh dd] in Wi.
    destruct (cells_len vs (w * h) Hv) as (Ec & Rc). rewrite (fold_opt_ext _ (pgm_ascii_pixel mx)) by reflexivity. set (buf := pixs im ++ _). assert (Lb : Z.of_nat (length buf) = w * h + (vs - (w * h) mod vs)) by (unfold buf; rewrite app_length, map_length, Nat2Z.inj_add, zseq_length; lia).
    assert (N : l <> []) by (intros Q; rewrite Q in Hl; cbn in Hl; lia). destruct Tx as (words & T1 & ->).
    pose proof (ascii_fold_None mx Hm Hm2 l words 0 pre [] buf ltac:(lia) T1 Ol ltac:(constructor) N ltac:(lia)) as E. rewrite Hl in E. erewrite (map_ext _ (fun k => k)), map_id in E by (intros; lia). cbn [app] in E. rewrite E. reflexivity.
  Qed.
End P2.

(** ** PBM *)
Lemma to_char_bit b k : 0 <= b < 256 -> 0 <= k < 8 -> (Z.rem (Z.shiftr (to_char b) k) 2 =? 0) = negb (Z.testbit b k).
Proof.
  intros Hb Hk. assert (E : Z.testbit (to_char b) k = Z.testbit b k).
  { unfold to_char. destruct (b <? 128); [reflexivity|]. rewrite <- (Z.mod_pow2_bits_low (b - 256) 8 k), <- (Z.mod_pow2_bits_low b 8 k) by lia. f_equal.
    replace (b - 256) with (b + (-1) * 2 ^ 8) by lia. apply Z_mod_plus_full. }
  rewrite <- E, Z.testbit_odd. set (x := Z.shiftr _ _). rewrite <- Z.negb_even, negb_involutive. destruct (Z.even x) eqn:Q.
  - apply Z.even_spec in Q as (y & ->). rewrite Z.mul_comm, Z.rem_mul by lia. reflexivity.
  - apply Z.eqb_neq. intros R. apply Z.rem_divide in R as (y & R); [|lia]. rewrite R, Z.even_mul in Q. cbn in Q. rewrite orb_true_r in Q. discriminate.
Qed.

Definition pbm_bits (t : ity) (row : list Z) (w : Z) : list Z := map (fun i => if Z.testbit (znth 0 row (i / 8)) (7 - i mod 8) then tmax t else 0) (zseq w).

Lemma pbm_row t row r : Forall (fun b => 0 <= b < 256) row -> forall w, 0 <= w -> (w + 7) / 8 <= Z.of_nat (length row) -> forall pre val line,
  exists val', fold_opt (pbm_pixel t) (zseq w) (at_ pre (row ++ r), val, line) =
    Some (at_ (pre ++ firstn (Z.to_nat ((w + 7) / 8)) row) (skipn (Z.to_nat ((w + 7) / 8)) row ++ r), val', line ++ pbm_bits t row w) /\
    (0 < w -> exists b, rd row ((w - 1) / 8) = Some b /\ val' = Some (to_char b)).
Proof.
  intros Br w Hw. pattern w. apply natlike_ind; [| |exact Hw].
  - intros _ pre val line. exists val. cbn. rewrite !app_nil_r. split; [reflexivity|lia].
  - clear w Hw. intros w Hw IH Hl pre val line. unfold Z.succ in *. assert (Hl2 : (w + 7) / 8 <= Z.of_nat (length row)) by (pose proof (Z.div_le_mono (w + 7) (w + 1 + 7) 8); lia).
    destruct (IH Hl2 pre val line) as (val' & E & V). rewrite zseq_succ by lia. rewrite fold_opt_app, E. cbn [option_bind fold_opt]. unfold pbm_pixel.
    assert (Eb : pbm_bits t row (w + 1) = pbm_bits t row w ++ [if Z.testbit (znth 0 row (w / 8)) (7 - w mod 8) then tmax t else 0]) by (unfold pbm_bits; rewrite zseq_succ, map_app by lia; reflexivity).
    pose proof (Z.mod_pos_bound w 8 ltac:(lia)). pose proof (Z.div_mod w 8 ltac:(lia)). destruct (Z.eqb_spec (w mod 8) 0) as [M|M].
    + assert (E7 : (w + 7) / 8 = w / 8) by (symmetry; apply Z.div_unique with 7; lia). assert (E8 : (w + 1 + 7) / 8 = w / 8 + 1) by (symmetry; apply Z.div_unique with 0; lia). rewrite E7, E8 in *. assert (0 <= w / 8) by (apply Z.div_pos; lia).
      destruct (rd_in_range row (w / 8) ltac:(lia)) as (b & Rb). assert (Sk : skipn (Z.to_nat (w / 8)) row = b :: skipn (Z.to_nat (w / 8 + 1)) row /\ firstn (Z.to_nat (w / 8 + 1)) row = firstn (Z.to_nat (w / 8)) row ++ [b]).
      { unfold rd in Rb. replace (0 <=? w / 8) with true in Rb by lia. replace (Z.to_nat (w / 8 + 1)) with (S (Z.to_nat (w / 8))) by lia. revert Rb. generalize (Z.to_nat (w / 8)). clear. intros n. revert row. induction n as [|n IH]; intros [|x row] E; cbn in E; try discriminate.
        - injection E as ->. split; reflexivity.
        - destruct (IH _ E) as (A & B). split; [exact A|]. cbn [firstn app] in *. f_equal. exact B. }
      destruct Sk as (-> & Fk). change ((b :: ?l) ++ r) with ([b] ++ (l ++ r)). rewrite (read_at _ [b]) by reflexivity. cbn [option_bind]. rewrite Fk, <- app_assoc, Eb, <- app_assoc. exists (Some (to_char b)).
      assert (Hb : 0 <= b < 256) by (rewrite Forall_forall in Br; apply Br; eapply rd_In; exact Rb). rewrite to_char_bit by lia. rewrite (znth_rd 0 _ _ _ Rb). rewrite app_assoc. split; [destruct (Z.testbit b _); reflexivity|].
      intros _. exists b. split; [|reflexivity]. replace (w + 1 - 1) with w by lia. exact Rb.
    + assert (E8 : (w + 1 + 7) / 8 = (w + 7) / 8).
      { transitivity (w / 8 + 1); [symmetry; apply Z.div_unique with (w mod 8); lia|apply Z.div_unique with (w mod 8 - 1); lia]. }
      rewrite E8. destruct (V ltac:(lia)) as (b & Rb & ->). replace ((w - 1) / 8) with (w / 8) in Rb by (apply Z.div_unique with (w mod 8 - 1); lia). cbn [option_bind]. exists (Some (to_char b)).
      assert (Hb : 0 <= b < 256) by (rewrite Forall_forall in Br; apply Br; eapply rd_In; exact Rb). rewrite to_char_bit by lia. rewrite Eb, (znth_rd 0 _ _ _ Rb), <- app_assoc. split; [destruct (Z.testbit b _); reflexivity|].
      intros _. exists b. split; [|reflexivity]. replace (w + 1 - 1) with w by lia. exact Rb.
Qed.

Lemma pbm_rows t w : 0 <= w -> forall rows r js pre val line, length js = length rows -> Forall (fun row => Forall (fun b => 0 <= b < 256) row /\ Z.of_nat (length row) = (w + 7) / 8) rows ->
  exists st val', fold_opt (fun s (j : Z) => fold_opt (pbm_pixel t) (zseq w) s) js (at_ pre (concat rows ++ r), val, line) = Some (st, val', line ++ flat_map (fun row => pbm_bits t row w) rows).
Proof.
  intros Hw. induction rows as [|row rows IH]; intros r js pre val line Lj A; destruct js as [|j js]; cbn in Lj; try lia.
  - cbn. rewrite app_nil_r. eauto.
  - inversion A as [|? ? (A1 & A2) A3]; subst. cbn [concat flat_map fold_opt]. rewrite <- app_assoc. destruct (pbm_row t row (concat rows ++ r) A1 w Hw ltac:(lia) pre val line) as (v & -> & _).
    rewrite <- A2, Nat2Z.id, skipn_all, firstn_all. cbn [app]. destruct (IH r js (pre ++ row) v (line ++ pbm_bits t row w) ltac:(lia) A3) as (st & v' & ->). rewrite <- app_assoc. eauto.
Qed.

Lemma pbm_read_p4 fuel t mem image cs w h a rows r : netpbm_binary 4 cs w h a -> (length cs < fuel)%nat -> 0 <= w < 2 ^ 64 -> 0 <= h < 2 ^ 64 -> Z.of_nat (length rows) = h ->
  Forall (fun row => Forall (fun b => 0 <= b < 256) row /\ Z.of_nat (length row) = (w + 7) / 8) rows ->
  pbm_read fuel t mem (a ++ concat rows ++ r) image = Some (Some (1, Img (Dims w h 1) (flat_map (fun row => pbm_bits t row w) rows))).
Proof.
  intros A F Hw Hh Hr R. unfold pbm_read. destruct (pnm_binary fuel 4 false cs w h a (concat rows ++ r) eq_refl A F ltac:(lia) ltac:(lia)) as (pre & ->). cbn [fuel_bind Z.eqb Pos.eqb negb pn_color pn_w pn_h pn_ascii].
  destruct (pbm_rows t w ltac:(lia) rows r (zseq h) pre None [] ltac:(pose proof (zseq_length h); lia) R) as (st & v & E). rewrite E. reflexivity.
Qed.

(** ** RAW *)
Lemma decode_all_ok t r : forall l, Forall (inty t) l -> decode_all t (length l) (flat_map (encode t) l ++ r) = l.
Proof.
  induction l as [|v l IH]; intros A; [reflexivity|]. inversion A as [|? ? A1 A2]; subst. cbn [length decode_all flat_map]. rewrite <- app_assoc. rewrite app_length, encode_length.
  replace (_ <? _)%nat with false by (symmetry; apply Nat.ltb_ge; lia). rewrite <- (encode_length t v) at 1 2. rewrite firstn_app_len, skipn_app_len, IH, decode_encode by assumption. reflexivity.
Qed.
Lemma raw_roundtrip t mem im image : wf_img im -> wf_img image -> typed_img t im -> raw_read t mem (raw_write t im) (width im) (height im) (depth im) image = (if Z.of_nat (length (pixs im)) =? 0 then -100 else 1, im).
Proof.
  intros (Wd & Wl) W T. unfold raw_read, raw_write. destruct (setSize_wf mem image (Dims (width im) (height im) (depth im)) W) as ((_ & L) & E); [unfold wf_dims, width, height, depth; cbn; exact Wd|].
  rewrite E in L. cbn in L. replace (length (pixs (setSize _ _ _))) with (length (pixs im)) by (unfold width, height, depth in *; lia).
  rewrite <- (app_nil_r (flat_map _ _)), decode_all_ok by exact T. rewrite overwrite_all by (unfold width, height, depth in *; lia). rewrite E. destruct im as (s, px). destruct s. reflexivity.
Qed.
