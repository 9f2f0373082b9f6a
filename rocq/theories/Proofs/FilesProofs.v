(** Streams, numbers and headers of the image files. *)
From Verif Require Export Model.Files Spec.FilesSpec Proofs.LoopFacts.

(** ** Numbers *)
Lemma pow256 n : 256 ^ Z.of_nat (S n) = 256 * 256 ^ Z.of_nat n.
Proof. rewrite Nat2Z.inj_succ, Z.pow_succ_r by lia. reflexivity. Qed.

Lemma le_bytes_length n v : length (le_bytes n v) = n.
Proof. revert v. induction n as [|n IH]; intros v; [reflexivity|]. cbn. rewrite IH. reflexivity. Qed.

Lemma le_value_bytes n v : le_value (le_bytes n v) = v mod 256 ^ Z.of_nat n.
Proof.
  revert v. induction n as [|n IH]; intros v; [cbn; rewrite Z.mod_1_r; reflexivity|]. cbn [le_bytes le_value]. rewrite IH, pow256.
  assert (0 < 256 ^ Z.of_nat n) by (apply Z.pow_pos_nonneg; lia). rewrite (Z.rem_mul_r v 256) by lia. reflexivity.
Qed.

Lemma tbytes_spec t : 256 ^ Z.of_nat (tbytes t) = 2 ^ nbits t /\ (0 < tbytes t)%nat.
Proof. destruct t; cbn; split; lia. Qed.

Lemma encode_length t v : length (encode t v) = tbytes t.
Proof. apply le_bytes_length. Qed.

Lemma decode_encode t v : inty t v -> decode t (encode t v) = v.
Proof.
  intros H. unfold decode, encode. rewrite le_value_bytes. destruct (tbytes_spec t) as (-> & _). unfold inty in H. unfold wrap, tmin, tmax in *.
  assert (0 < 2 ^ nbits t) by (destruct t; cbn; lia). destruct (is_signed t) eqn:S.
  - rewrite <- Zplus_mod_idemp_l, Zmod_mod, Zplus_mod_idemp_l. assert (2 ^ nbits t = 2 * 2 ^ (nbits t - 1)) by (destruct t; reflexivity). rewrite Z.mod_small by lia. lia.
  - rewrite Zmod_mod, Z.mod_small by lia. reflexivity.
Qed.

Lemma encode_byte t v b : In b (encode t v) -> 0 <= b < 256.
Proof. unfold encode. revert v. induction (tbytes t) as [|n IH]; intros v; [intros []|]. cbn. intros [<-|H]; [apply Z.mod_pos_bound; lia|eapply IH; exact H]. Qed.

Lemma to_int_id z : - 2 ^ 31 <= z < 2 ^ 31 -> to_int z = z.
Proof. intros H. unfold to_int. rewrite Z.mod_small by lia. lia. Qed.
Lemma to_uint_id z : 0 <= z < 2 ^ 32 -> to_uint z = z.
Proof. intros H. unfold to_uint. apply Z.mod_small. lia. Qed.

(** ** Decimal numbers *)
Notation numval := (fold_left (fun a c => 10 * a + (c - 48))).
Lemma digit_char_true c : digit_char c -> is_digit c = true.
Proof. unfold digit_char, is_digit. lia. Qed.
Lemma numeral_pos l n : numeral l n -> 0 <= n.
Proof.
  intros (_ & A & <-). assert (G : forall a, 0 <= a -> 0 <= numval l a) by (induction A as [|c l Hc A IH]; intros a Ha; cbn [fold_left]; [exact Ha|apply IH; unfold digit_char in Hc; lia]). apply G. lia.
Qed.
Lemma dec_numval : forall fuel n acc, 0 <= n -> (Z.to_nat (Z.log2 n) < fuel)%nat -> numval (dec_digits fuel n acc) 0 = numval acc n.
Proof.
  induction fuel as [|fuel IH]; intros n acc Hn F; [lia|]. cbn [dec_digits]. destruct (n <? 10) eqn:E; [apply Z.ltb_lt in E|apply Z.ltb_ge in E].
  - cbn [fold_left]. f_equal. lia.
  - assert (0 <= n / 10) by (apply Z.div_pos; lia). assert (L : Z.log2 (n / 10) < Z.log2 n).
    { assert (0 < n / 10) by (apply Z.div_str_pos; lia). pose proof (Z.log2_double (n / 10) ltac:(lia)). assert (2 * (n / 10) <= n) by (pose proof (Z.div_mod n 10); pose proof (Z.mod_pos_bound n 10); lia).
      pose proof (Z.log2_le_mono _ _ H2). lia. }
    pose proof (Z.log2_nonneg (n / 10)). rewrite IH by lia. cbn [fold_left]. f_equal. pose proof (Z.div_mod n 10). lia.
Qed.
Lemma dec_chars : forall fuel n acc, 0 <= n -> Forall digit_char acc -> Forall digit_char (dec_digits fuel n acc).
Proof.
  induction fuel as [|fuel IH]; intros n acc Hn A; [exact A|]. cbn [dec_digits]. unfold digit_char in *. destruct (n <? 10) eqn:E; [apply Z.ltb_lt in E; constructor; [lia|exact A]|].
  apply IH; [apply Z.div_pos; lia|]. pose proof (Z.mod_pos_bound n 10). constructor; [lia|exact A].
Qed.
Lemma dec_first : forall fuel n acc, fuel <> O -> dec_digits fuel n acc <> [].
Proof.
  induction fuel as [|fuel IH]; intros n acc F; [congruence|]. cbn [dec_digits]. destruct (n <? 10); [discriminate|]. destruct fuel as [|f]; [discriminate|]. apply IH. discriminate.
Qed.
Lemma dec_numeral n : 0 <= n -> numeral (dec n) n.
Proof. intros H. unfold dec. split; [apply dec_first; discriminate|]. split; [apply dec_chars; [exact H|constructor]|]. rewrite dec_numval by lia. reflexivity. Qed.

Lemma numeral_take l n r : numeral l n -> (forall c r', r = c :: r' -> is_digit c = false) -> take_digits (l ++ r) 0 = (n, r).
Proof.
  intros (_ & A & <-) Hr. assert (G : forall a, take_digits (l ++ r) a = (numval l a, r)); [|apply G]. induction A as [|c l Hc A IH]; intros a; cbn.
  - destruct r as [|c r]; [reflexivity|]. cbn. rewrite (Hr c r eq_refl). reflexivity.
  - rewrite digit_char_true by exact Hc. apply IH.
Qed.
Lemma numeral_head l n : numeral l n -> exists c r, l = c :: r /\ digit_char c.
Proof. intros (N & A & _). destruct l as [|c r]; [congruence|]. inversion A; subst. eauto. Qed.
Lemma atoi_numeral l n r : numeral l n -> n < 2 ^ 31 -> (forall c r', r = c :: r' -> is_digit c = false) -> c_atoi (l ++ r) = Some n.
Proof.
  intros N H Hr. pose proof (numeral_pos _ _ N). destruct (numeral_head _ _ N) as (c & m & -> & Hc). unfold c_atoi. pose proof (numeral_take _ _ r N Hr) as D. cbn [app skip_spaces]. unfold digit_char in Hc.
  unfold is_space. replace ((c =? 32) || (9 <=? c) && (c <=? 13)) with false by lia. replace (c =? 45) with false by lia. replace (c =? 43) with false by lia. cbn [orb].
  cbn [app] in D. rewrite D. cbn [fst]. replace ((- 2 ^ 31 <=? n) && (n <? 2 ^ 31)) with true by lia. reflexivity.
Qed.

(** ** Streams *)
Definition at_ (pre r : list Z) : istream := IS (pre ++ r) (Z.of_nat (length pre)) false false.
Lemma at_open data : is_open data = at_ [] data.
Proof. reflexivity. Qed.
Lemma skipn_app_len {A} (a b : list A) : skipn (length a) (a ++ b) = b.
Proof. induction a; [reflexivity|assumption]. Qed.
Lemma firstn_app_len {A} (a b : list A) : firstn (length a) (a ++ b) = a.
Proof. induction a; [reflexivity|]. cbn. f_equal. assumption. Qed.
Lemma at_rest pre r : is_rest (at_ pre r) = r.
Proof. unfold is_rest, at_. cbn. rewrite Nat2Z.id. apply skipn_app_len. Qed.
Lemma at_good pre r : is_good (at_ pre r) = true.
Proof. reflexivity. Qed.

Lemma take_line_nl line r : ~ In 10 line -> take_line (line ++ 10 :: r) = (line, true).
Proof.
  induction line as [|c l IH]; intros H; [reflexivity|]. cbn. destruct (c =? 10) eqn:E; [apply Z.eqb_eq in E; exfalso; apply H; left; congruence|]. rewrite IH; [reflexivity|]. intros Q. apply H. right. exact Q.
Qed.
Lemma take_line_end line : ~ In 10 line -> take_line line = (line, false).
Proof.
  induction line as [|c l IH]; intros H; [reflexivity|]. cbn. destruct (c =? 10) eqn:E; [apply Z.eqb_eq in E; exfalso; apply H; left; congruence|]. rewrite IH; [reflexivity|]. intros Q. apply H. right. exact Q.
Qed.
Lemma getline_nl pre line r buf : ~ In 10 line -> is_getline (at_ pre (line ++ 10 :: r)) buf = (at_ (pre ++ line ++ [10]) r, line).
Proof.
  intros H. unfold is_getline. rewrite at_good, at_rest, take_line_nl by exact H. cbn [negb]. unfold at_. cbn [is_data is_pos]. f_equal. f_equal; [rewrite <- !app_assoc; reflexivity|]. rewrite !app_length. cbn [length]. lia.
Qed.
Lemma getline_end pre line buf : ~ In 10 line -> is_getline (at_ pre line) buf = (IS (pre ++ line) (Z.of_nat (length (pre ++ line))) true (is_nil line), line).
Proof.
  intros H. unfold is_getline. rewrite at_good, at_rest, take_line_end by exact H. cbn [negb]. unfold at_. cbn [is_data is_pos]. f_equal. f_equal. rewrite app_length. lia.
Qed.
Lemma seek_at pre r p e q : q = Z.of_nat (length pre) -> is_seekg (IS (pre ++ r) p e false) q = at_ pre r.
Proof. intros ->. unfold is_seekg. cbn [is_fail is_data orb]. replace (_ <? 0) with false by lia. reflexivity. Qed.
Lemma seek_one pre c r : is_seekg (at_ pre (c :: r)) (is_pos (at_ pre (c :: r)) + 1) = at_ (pre ++ [c]) r.
Proof.
  unfold at_ at 1. replace (pre ++ c :: r) with ((pre ++ [c]) ++ r) by (rewrite <- app_assoc; reflexivity). apply seek_at. unfold at_. cbn [is_pos]. rewrite app_length. cbn. lia.
Qed.
Lemma read_at pre a r n : n = Z.of_nat (length a) -> is_read (at_ pre (a ++ r)) n = (a, at_ (pre ++ a) r).
Proof.
  intros ->. unfold is_read. rewrite at_good, at_rest. cbn [negb]. rewrite Nat2Z.id, firstn_app_len, Z.ltb_irrefl. unfold at_. cbn [is_data is_pos]. f_equal. f_equal; [rewrite app_assoc; reflexivity|rewrite app_length; lia].
Qed.
Lemma white_space c : white c -> is_space c = true.
Proof. unfold white, is_space. lia. Qed.
Lemma white_not_digit c : white c -> is_digit c = false.
Proof. unfold white, is_digit. lia. Qed.
Lemma skip_spaces_app sp c r : Forall white sp -> is_space c = false -> skip_spaces (sp ++ c :: r) = c :: r.
Proof. intros A H. induction A as [|x l E A IH]; cbn; [rewrite H; reflexivity|rewrite (white_space _ E); exact IH]. Qed.
Lemma extract_dec lo hi pre sp l n c r old : Forall white sp -> numeral l n -> n <= hi -> is_digit c = false ->
  is_extract lo hi (at_ pre (sp ++ l ++ c :: r)) old = (Some n, at_ (pre ++ sp ++ l) (c :: r)).
Proof.
  intros A N H Hc. unfold is_extract. rewrite at_good, at_rest. cbn [negb]. pose proof (numeral_take l n (c :: r) N) as D. specialize (D ltac:(intros ? ? Q; injection Q as <- _; exact Hc)).
  destruct (numeral_head _ _ N) as (d & m & -> & Hd). unfold digit_char in Hd. assert (Sd : is_space d = false) by (unfold is_space; lia).
  cbn [app] in *. rewrite skip_spaces_app by assumption. replace (d =? 43) with false by lia. replace (d =? 45) with false by lia. cbn [orb]. rewrite D.
  assert (Ln : Nat.eqb (length (c :: r)) (length (d :: m ++ c :: r)) = false) by (apply Nat.eqb_neq; cbn [length]; rewrite app_length; cbn [length]; lia).
  rewrite Ln. cbn [is_nil]. rewrite !andb_false_r. replace (n >? hi) with false by lia. rewrite andb_false_r. cbn [andb].
  unfold at_. cbn [is_data]. f_equal. f_equal; [repeat (rewrite <- !app_assoc; cbn [app]); reflexivity|]. rewrite !app_length. cbn [length]. rewrite app_length. cbn [length]. lia.
Qed.
Lemma overwrite_all l new : length l = length new -> overwrite l new = new.
Proof. intros H. unfold overwrite. rewrite <- H, skipn_all, app_nil_r. reflexivity. Qed.
Lemma setSize_wf mem image s : wf_img image -> wf_dims s -> wf_img (setSize mem image s) /\ sz (setSize mem image s) = s.
Proof.
  intros (Wd & Wl) Ws. unfold setSize, width, height, depth. destruct ((dw s =? _) && _ && _) eqn:E.
  - apply andb_true_iff in E as (E & E3). apply andb_true_iff in E as (E1 & E2). apply Z.eqb_eq in E1, E2, E3. split; [split; assumption|]. destruct s, (sz image). cbn in *. congruence.
  - cbn [pixs sz]. split; [|reflexivity]. split; [exact Ws|]. cbn [pixs sz]. rewrite map_length, zseq_length; unfold pixelCount, lineCount; unfold wf_dims in Ws; nia.
Qed.
Lemma set_size_wf mem image w h d : wf_img image -> 0 <= w -> 0 <= h -> 0 <= d -> exists im, set_size mem image w h d = Some im /\ wf_img im /\ sz im = Dims w h d.
Proof.
  intros W Hw Hh Hd. unfold set_size. replace ((w <? 0) || (h <? 0) || (d <? 0)) with false by lia. destruct (setSize_wf mem image (Dims w h d) W ltac:(unfold wf_dims; cbn; lia)) as (A & B). eauto.
Qed.

(** ** Headers of PGM and PBM files *)
Notation pnm_comments := (flat_map (fun c => 35 :: c ++ [10])).
Lemma getline_some pre c r buf : c <> 10 -> exists p e line, is_getline (at_ pre (c :: r)) buf = (IS (pre ++ c :: r) p e false, c :: line).
Proof.
  intros H. unfold is_getline. rewrite at_good, at_rest. cbn [negb take_line]. replace (c =? 10) with false by lia. destruct (take_line r) as (a, b). destruct b; cbn [is_nil]; eauto.
Qed.
Lemma skip_comments_ok c r : c <> 35 -> c <> 10 -> forall cs pre buf fuel, Forall no_newline cs -> (length cs < fuel)%nat ->
  exists p e, skip_comments fuel (at_ pre (pnm_comments cs ++ c :: r)) buf = Some (IS (pre ++ pnm_comments cs ++ c :: r) p e false, Z.of_nat (length (pre ++ pnm_comments cs))).
Proof.
  intros H1 H2. induction cs as [|l cs IH]; intros pre buf [|fuel] A F; cbn [length] in F; try lia; cbn [skip_comments]; unfold is_tellg; rewrite at_good.
  - cbn [flat_map app]. destruct (getline_some pre c r buf H2) as (p & e & line & ->). cbn [znth]. replace (znth 0 (c :: line) 0) with c by reflexivity. replace (c =? 35) with false by lia.
    exists p, e. rewrite app_nil_r. reflexivity.
  - inversion A as [|? ? A1 A2]; subst. assert (E : pnm_comments (l :: cs) ++ c :: r = (35 :: l) ++ 10 :: pnm_comments cs ++ c :: r) by (cbn [flat_map]; rewrite <- !app_assoc; cbn [app]; rewrite <- app_assoc; reflexivity).
    rewrite E, getline_nl by (intros [Q|Q]; [lia|exact (A1 Q)]). replace (znth 0 (35 :: l) 0) with 35 by reflexivity. cbn [Z.eqb Pos.eqb].
    destruct (IH (pre ++ (35 :: l) ++ [10]) (35 :: l) fuel A2 ltac:(lia)) as (p & e & ->). exists p, e.
    assert (E3 : pre ++ pnm_comments (l :: cs) = (pre ++ (35 :: l) ++ [10]) ++ pnm_comments cs) by (cbn [flat_map app]; rewrite <- !app_assoc; cbn [app]; rewrite <- app_assoc; reflexivity).
    rewrite E3. f_equal. f_equal. f_equal. repeat (rewrite <- !app_assoc; cbn [app]). reflexivity.
Qed.

Lemma pnm_start_ok fuel k col ascii cs w h a c r : pnm_kind k = Some (col, ascii) -> netpbm_start k cs w h a -> (length cs < fuel)%nat -> w < 2 ^ 64 -> h < 2 ^ 64 -> is_digit c = false ->
  exists pre, readNetPBMFileInfo fuel (is_open (a ++ c :: r)) =
    (let '(mx, st) := match col with Binary => (None, at_ pre (c :: r)) | _ => is_uint (at_ pre (c :: r)) None end in
     Some (Some (1, Pnm col ascii w h mx, is_seekg st (is_pos st + 1)))).
Proof.
  intros K (A & nw & sp & nh & Nw & (Nsp & Sp) & Nh & ->) F Hw Hh Hc. unfold readNetPBMFileInfo. rewrite at_open, <- !app_assoc.
  assert (Kd : 0 <= k <= 9) by (unfold pnm_kind in K; repeat match type of K with context [if ?b then _ else _] => destruct b eqn:?; [lia|] end; discriminate).
  change ([80; 48 + k; 10] ++ ?r) with ([80; 48 + k] ++ 10 :: r). rewrite getline_nl by (intros [Q|[Q|[]]]; lia). change ([] ++ [80; 48 + k] ++ [10]) with [80; 48 + k; 10]. replace (znth 0 [80; 48 + k] 0) with 80 by reflexivity. cbn [Z.eqb Pos.eqb negb andb tl].
  assert (At : c_atoi [48 + k] = Some k).
  { apply (atoi_numeral [48 + k] k []); [|lia|discriminate]. split; [discriminate|]. split; [constructor; [unfold digit_char; lia|constructor]|]. cbn [fold_left]. lia. }
  rewrite At. cbn [option_bind]. rewrite K. destruct (numeral_head _ _ Nw) as (d & m & E & Hd). unfold digit_char in Hd.
  replace (nw ++ sp ++ nh ++ c :: r) with (d :: m ++ sp ++ nh ++ c :: r) by (rewrite E; reflexivity).
  destruct (skip_comments_ok d (m ++ sp ++ nh ++ c :: r) ltac:(lia) ltac:(lia) cs [80; 48 + k; 10] [80; 48 + k] fuel A F) as (p & e & ->).
  destruct sp as [|s1 sp1]; [congruence|]. inversion Sp as [|? ? S1 S2]; subst s1 sp1; rename x into s1, l into sp1.
  replace (d :: m ++ (s1 :: sp1) ++ nh ++ c :: r) with ([] ++ nw ++ s1 :: sp1 ++ nh ++ c :: r) by (rewrite E; reflexivity). rewrite app_assoc.
  rewrite seek_at by reflexivity. unfold is_size_t. rewrite (extract_dec _ _ _ [] nw w) by (first [solve [constructor] | assumption | lia | apply white_not_digit; assumption]). cbn [app].
  change (s1 :: sp1 ++ ?r) with ((s1 :: sp1) ++ r). rewrite (extract_dec _ _ _ _ nh h) by (try lia; assumption).
  match goal with |- context [at_ ?p (c :: r)] => exists p end. destruct col; [destruct (is_uint _ _)|destruct (is_uint _ _)|]; reflexivity.
Qed.
Lemma pnm_gray fuel k ascii cs w h mx a r : pnm_kind k = Some (Gray, ascii) -> netpbm_gray k cs w h mx a -> (length cs < fuel)%nat -> w < 2 ^ 64 -> h < 2 ^ 64 -> mx < 2 ^ 32 ->
  exists pre, readNetPBMFileInfo fuel (is_open (a ++ r)) = Some (Some (1, Pnm Gray ascii w h (Some mx), at_ pre r)).
Proof.
  intros K (b & sp & nm & c & B & (Nsp & Sp) & Nm & Wc & ->) F Hw Hh Hm. destruct sp as [|s sp]; [congruence|]. rewrite <- !app_assoc. cbn [app]. inversion Sp as [|? ? S1 S2]; subst.
  destruct (pnm_start_ok fuel k Gray ascii cs w h b s (sp ++ nm ++ c :: r) K B F Hw Hh ltac:(apply white_not_digit; assumption)) as (pre & ->).
  change (s :: sp ++ nm ++ c :: r) with ((s :: sp) ++ nm ++ c :: r). unfold is_uint. rewrite (extract_dec _ _ _ _ nm mx) by (try apply white_not_digit; try lia; assumption). rewrite seek_one. eauto.
Qed.
Lemma pnm_binary fuel k ascii cs w h a r : pnm_kind k = Some (Binary, ascii) -> netpbm_binary k cs w h a -> (length cs < fuel)%nat -> w < 2 ^ 64 -> h < 2 ^ 64 ->
  exists pre, readNetPBMFileInfo fuel (is_open (a ++ r)) = Some (Some (1, Pnm Binary ascii w h None, at_ pre r)).
Proof.
  intros K (b & c & B & Wc & ->) F Hw Hh. rewrite <- app_assoc. cbn [app]. destruct (pnm_start_ok fuel k Binary ascii cs w h b c r K B F Hw Hh ltac:(apply white_not_digit; assumption)) as (pre & ->). rewrite seek_one. eauto.
Qed.
